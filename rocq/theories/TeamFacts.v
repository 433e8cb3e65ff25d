(** * Programs that do not notice each other *)
From Coq Require Import Ascii String List NArith ZArith Bool Lia.
From Verif Require Import GoStr StrLemmas GoNum GoFloat Heap Common ValueModel ArrayModel MapModel JsonModel ParserModel
  GetterModel NamedModel PtrModel PtrListModel TimeModel SpecDict DictLemmas SpecWorld Inv World Reach SpecAlike ClientModel TeamModel
  AlikeFacts AlikeRead AlikeWrite AlikeTop.
Import ListNotations.

(** ** Calls that only read change no old cell *)

Definition sep (n : nat) (h : heap) : Prop :=
  forall m mo, n <= m -> nth_error h m = Some (CMap mo) -> n <= m_vals mo.
Definition kept (n : nat) (h h' : heap) : Prop := forall a, a < n -> nth_error h' a = nth_error h a.
Definition fr (n : nat) {A} (m : M A) (P : A -> Prop) : Prop :=
  forall h a h', n <= length h -> sep n h -> m h = Ok (a, h') -> n <= length h' /\ sep n h' /\ kept n h h' /\ P a.

Lemma fr_bind n {A B} (m : M A) (f : A -> M B) (P : A -> Prop) (Q : B -> Prop) :
  fr n m P -> (forall a, P a -> fr n (f a) Q) -> fr n (bind m f) Q.
Proof.
  intros H K h b h2 Ln S E. unfold bind in E. destruct (m h) as [[a h1]| | |] eqn:E1; try discriminate.
  destruct (H _ _ _ Ln S E1) as (L1 & S1 & K1 & Pa).
  destruct (K a Pa _ _ _ L1 S1 E) as (L2 & S2 & K2 & Qb).
  repeat split; auto. intros x Hx. rewrite K2; auto.
Qed.
Lemma fr_ret n {A} (a : A) (P : A -> Prop) : P a -> fr n (ret a) P.
Proof. intros H h b h' Ln S E. inversion E; subst. repeat split; auto. Qed.
Lemma fr_imp n {A} (m : M A) (P Q : A -> Prop) : (forall a, P a -> Q a) -> fr n m P -> fr n m Q.
Proof. intros H K h a h' Ln S E. destruct (K _ _ _ Ln S E) as (? & ? & ? & ?). auto. Qed.
Lemma fr_lift n {A} (f : heap -> res A) : fr n (mlift f) (fun _ => True).
Proof.
  intros h a h' Ln S E. unfold mlift in E. destruct (f h); inversion E; subst. repeat split; auto.
Qed.
Lemma fr_panic n {A} (P : A -> Prop) : fr n mpanic P.
Proof. intros h a h' _ _ E. discriminate. Qed.
Lemma fr_stuck n {A} (P : A -> Prop) : fr n mstuck P.
Proof. intros h a h' _ _ E. discriminate. Qed.
Lemma nth_app_new {A} (h : list A) c m x : nth_error (h ++ [c]) m = Some x -> nth_error h m = Some x \/ (m = length h /\ x = c).
Proof.
  intros H. destruct (Nat.lt_ge_cases m (length h)) as [C|C].
  - rewrite nth_error_app1 in H; auto.
  - rewrite nth_error_app2 in H; auto. destruct (m - length h) as [|k] eqn:D; cbn in H.
    + inversion H; subst. right. split; auto. lia.
    + destruct k; discriminate.
Qed.
Lemma fr_alloc n c (Hc : match c with CMap mo => n <= m_vals mo | _ => True end) : fr n (alloc c) (fun l => n <= l).
Proof.
  intros h a h' Ln S E. inversion E; subst. rewrite app_length. cbn. repeat split; try lia.
  - intros m mo Hm K. apply nth_app_new in K as [K|[_ K]]; [eauto|]. rewrite <- K in Hc. auto.
  - intros x Hx. apply nth_error_app1. lia.
Qed.
Lemma fr_wr n l c : n <= l -> match c with CMap mo => n <= m_vals mo | _ => True end -> fr n (wr l c) (fun _ => True).
Proof.
  intros Hl Hc h a h' Ln S E. unfold wr in E. destruct (Nat.ltb_spec l (length h)) as [C|C]; inversion E; subst.
  rewrite upd_length. repeat split; auto.
  - intros m mo Hm K. destruct (Nat.eq_dec m l) as [->|N].
    + rewrite nth_error_upd, Nat.eqb_refl in K by auto. inversion K; subst; auto.
    + rewrite nth_error_upd in K by auto. destruct (Nat.eqb_spec l m); [congruence|]. eauto.
  - intros x Hx. rewrite nth_error_upd by auto. destruct (Nat.eqb_spec l x); [lia|auto].
Qed.

Ltac by_fr E h n :=
  match type of E with ?m h = _ => let K := fresh in assert (K : fr n m (fun _ => True)); [|eapply K; eassumption] end.

Lemma fr_new_array n : fr n new_array (fun l => n <= l).
Proof. apply (fr_alloc n (CArr [])). exact Logic.I. Qed.
Lemma fr_new_value n i : fr n (new_value i) (fun l => n <= l).
Proof. apply (fr_alloc n (CVal i)). exact Logic.I. Qed.
Lemma fr_new_map n : fr n new_map (fun l => n <= l).
Proof. eapply fr_bind; [apply fr_new_array|]. intros a Ha. apply fr_alloc. exact Ha. Qed.
Lemma fr_AppendValue n a o : n <= a -> fr n (arr_AppendValue a o) (fun _ => True).
Proof.
  intros Ha h x h' Ln S E. unfold arr_AppendValue in E. destruct (rd_arr h a); try discriminate.
  eapply (fr_wr n a); eauto. exact Logic.I.
Qed.
Lemma fr_AppendObject n a i : n <= a -> fr n (arr_AppendObject a i) (fun _ => True).
Proof. intros Ha. eapply fr_bind; [apply fr_new_value|]. intros v _. now apply fr_AppendValue. Qed.
Lemma fr_SetValueAtIndex n a z o : n <= a -> fr n (arr_SetValueAtIndex a z o) (fun _ => True).
Proof.
  intros Ha h x h' Ln S E. unfold arr_SetValueAtIndex in E. destruct (rd_arr h a) as [l| | |]; try discriminate.
  destruct (Z.ltb z 0); [inversion E; subst; repeat split; auto|].
  destruct (Z.ltb _ z); [inversion E; subst; repeat split; auto|].
  by_fr E h n. eapply fr_bind; [apply fr_wr; auto; exact Logic.I|]. intros _ _. now apply fr_ret.
Qed.
Lemma fr_setInternal n m k o : n <= m -> fr n (map_setInternal m k o) (fun _ => True).
Proof.
  intros Hm h x h' Ln S E. unfold map_setInternal in E. destruct (rd_map h m) as [mo| | |] eqn:R; try discriminate.
  assert (V : n <= m_vals mo).
  { apply (S m mo Hm). unfold rd_map in R. destruct (nth_error h m) as [[| |mo'|]|]; inversion R; subst; auto. }
  assert (Pt : forall keys, fr n (fun h' => wr m (CMap (MObj (tbl_put (m_tbl mo) k o) keys (m_vals mo))) h') (fun _ => True)).
  { intros keys. apply (fr_wr n m); auto. }
  destruct (_ || _).
  - by_fr E h n. eapply fr_bind; [now apply fr_AppendValue|]. intros _ _. apply Pt.
  - destruct (find_index k (m_keys mo)) as [i|].
    + by_fr E h n. eapply fr_bind; [now apply fr_SetValueAtIndex|]. intros _ _. apply Pt.
    + exact (Pt (m_keys mo) _ _ _ Ln S E).
Qed.
Lemma fr_map_SetObject n m k i : n <= m -> fr n (map_SetObject m k i) (fun _ => True).
Proof. intros H. eapply fr_bind; [apply fr_new_value|]. intros v _. now apply fr_setInternal. Qed.
Lemma fr_value_SetObject n v i : n <= v -> fr n (value_SetObject v i) (fun _ => True).
Proof.
  intros H h x h' Ln S E. unfold value_SetObject in E. destruct (rd_val h v); try discriminate.
  eapply (fr_wr n v (CVal i)); eauto.
Qed.
Lemma fr_wrap n X i : fr n (wrap_iface X i) (fun _ => True).
Proof.
  assert (K : fr n (v <- new_value i ;; ret (Some v)) (fun _ : option loc => True)).
  { eapply fr_bind; [apply fr_new_value|]. intros v _. now apply fr_ret. }
  unfold wrap_iface. destruct (common_GetType X i); destruct i; auto; now apply fr_ret.
Qed.
Lemma fr_append_all n X a l : n <= a -> fr n (arr_append_all X a l) (fun _ => True).
Proof.
  intros H. induction l as [|i l IH]; cbn [arr_append_all]; [now apply fr_ret|].
  eapply fr_bind; [apply fr_wrap|]. intros o _. eapply fr_bind; [now apply fr_AppendValue|]. auto.
Qed.
Lemma fr_put_all n X m l : n <= m -> fr n (map_put_all X m l) (fun _ => True).
Proof.
  intros H. induction l as [|[k i] l IH]; cbn [map_put_all]; [now apply fr_ret|].
  eapply fr_bind; [apply fr_wrap|]. intros o _. eapply fr_bind; [now apply fr_setInternal|]. auto.
Qed.
Lemma fr_array_of n X l : fr n (new_array_of_values X l) (fun _ => True).
Proof.
  eapply fr_bind; [apply fr_new_array|]. intros a Ha. destruct l; [|now apply fr_ret].
  eapply fr_bind; [now apply fr_append_all|]. intros _ _. now apply fr_ret.
Qed.
Lemma fr_map_of n X l : fr n (new_map_of_values X l) (fun _ => True).
Proof.
  eapply fr_bind; [apply fr_new_map|]. intros a Ha. destruct l; [|now apply fr_ret].
  eapply fr_bind; [now apply fr_put_all|]. intros _ _. now apply fr_ret.
Qed.

(** Clone. *)
Section Clone.
  Context (n : nat) (X : ext) (rec : ckind -> loc -> M (gres loc)).
  Hypothesis Hrec : forall k l, fr n (rec k l) (fun _ => True).
  Lemma fr_clone_map_of v : fr n (clone_map_of rec X v) (fun _ => True).
  Proof.
    unfold clone_map_of. eapply fr_bind; [apply fr_lift|]. intros r _.
    destruct r as [[m|]|]; auto using fr_panic; now apply fr_ret.
  Qed.
  Lemma fr_clone_arr_of v : fr n (clone_arr_of rec X v) (fun _ => True).
  Proof.
    unfold clone_arr_of. eapply fr_bind; [apply fr_lift|]. intros r _.
    destruct r as [[m|]|]; auto using fr_panic; now apply fr_ret.
  Qed.
  Lemma fr_clone_plain i : fr n (clone_plain X i) (fun _ => True).
  Proof.
    unfold clone_plain. destruct (common_GetType X i), i; try (apply fr_ret; exact Logic.I);
      repeat match goal with
        | [ |- fr _ (bind (mlift _) _) _ ] => eapply fr_bind; [apply fr_lift|]; intros ? _
        | [ |- fr _ (bind (alloc (CPtr _)) _) _ ] => eapply fr_bind; [apply fr_alloc; exact Logic.I|]; intros ? _
        | [ |- fr _ (ret _) _ ] => apply fr_ret; exact Logic.I
        | [ |- fr _ mpanic _ ] => apply fr_panic
        | [ |- fr _ mstuck _ ] => apply fr_stuck
        | [ |- fr _ (match ?x with _ => _ end) _ ] => destruct x
        end.
  Qed.
  Lemma fr_clone_value v : fr n (clone_value_body rec X v) (fun _ => True).
  Proof.
    unfold clone_value_body. eapply fr_bind; [apply fr_new_value|]. intros c Hc.
    eapply fr_bind; [apply fr_lift|]. intros g _.
    destruct (common_IsMap g); [|destruct (common_IsArray X g)].
    - eapply fr_bind; [apply fr_clone_map_of|]. intros [r|r] _; [|now apply fr_ret].
      eapply fr_bind; [now apply fr_value_SetObject|]. intros _ _. now apply fr_ret.
    - eapply fr_bind; [apply fr_clone_arr_of|]. intros [r|r] _; [|now apply fr_ret].
      eapply fr_bind; [now apply fr_value_SetObject|]. intros _ _. now apply fr_ret.
    - eapply fr_bind; [apply fr_lift|]. intros i _. eapply fr_bind; [apply fr_clone_plain|].
      intros [j|] _; [|now apply fr_ret].
      eapply fr_bind; [now apply fr_value_SetObject|]. intros _ _. now apply fr_ret.
  Qed.
  Lemma fr_clone_key m c k : n <= c -> fr n (clone_key rec X m c k) (fun _ => True).
  Proof.
    intros Hc. unfold clone_key. eapply fr_bind; [apply fr_lift|]. intros a _. eapply fr_bind; [apply fr_lift|]. intros b _.
    eapply fr_bind; [apply fr_lift|]. intros o _.
    assert (N : fr n (map_SetObject c k INil ;; ret []) (fun _ : list err => True)).
    { eapply fr_bind; [now apply fr_map_SetObject|]. intros _ _. now apply fr_ret. }
    destruct a, b, o as [v|]; auto;
      (eapply fr_bind; [first [apply fr_clone_map_of | apply fr_clone_arr_of | apply Hrec]|]);
      intros [z|e] _; try (now apply fr_ret);
      (eapply fr_bind; [first [now apply fr_map_SetObject | now apply fr_setInternal]|]); intros _ _; now apply fr_ret.
  Qed.
  Lemma fr_clone_keys m c ks : n <= c -> fr n (clone_keys rec X m c ks) (fun _ => True).
  Proof.
    intros Hc. induction ks as [|k ks IH]; cbn [clone_keys]; [now apply fr_ret|].
    eapply fr_bind; [now apply fr_clone_key|]. intros e _. eapply fr_bind; [exact IH|]. intros e' _. now apply fr_ret.
  Qed.
  Lemma fr_clone_elem c o : n <= c -> fr n (clone_elem rec X c o) (fun _ => True).
  Proof.
    intros Hc. unfold clone_elem. destruct o as [v|]; [|apply fr_panic].
    eapply fr_bind; [apply fr_lift|]. intros g _.
    destruct (common_IsMap g); [|destruct (common_IsArray X g)];
      (eapply fr_bind; [first [apply fr_clone_map_of | apply fr_clone_arr_of | apply Hrec]|]);
      intros [z|e] _; try (now apply fr_ret);
      (eapply fr_bind; [first [now apply fr_AppendObject | now apply fr_AppendValue]|]); intros _ _; now apply fr_ret.
  Qed.
  Lemma fr_clone_elems c l : n <= c -> fr n (clone_elems rec X c l) (fun _ => True).
  Proof.
    intros Hc. induction l as [|k ks IH]; cbn [clone_elems]; [now apply fr_ret|].
    eapply fr_bind; [now apply fr_clone_elem|]. intros e _. eapply fr_bind; [exact IH|]. intros e' _. now apply fr_ret.
  Qed.
End Clone.
Lemma fr_clone n X fuel : forall k l, fr n (clone fuel X k l) (fun _ => True).
Proof.
  induction fuel as [|f IH]; intros k l; cbn [clone].
  - intros h a h' _ _ E. discriminate.
  - destruct k; [now apply fr_clone_value| |].
    + unfold clone_map_body. eapply fr_bind; [apply fr_new_map|]. intros c Hc. eapply fr_bind; [apply fr_lift|]. intros ks _.
      eapply fr_bind; [now apply fr_clone_keys|]. intros e _. now apply fr_ret.
    + unfold clone_arr_body. eapply fr_bind; [apply fr_new_array|]. intros c Hc. eapply fr_bind; [apply fr_lift|]. intros ks _.
      eapply fr_bind; [now apply fr_clone_elems|]. intros e _. now apply fr_ret.
Qed.

(** Pointers. *)
Ltac fr_res E := repeat match type of E with
  | rbind ?r _ = Ok _ => let Q := fresh in destruct r eqn:Q; cbn [rbind] in E; try discriminate
  | match ?x with _ => _ end = Ok _ => destruct x; try discriminate
  end.
Lemma fr_in_new n {A} (mk : A -> scalar) r : fr n (in_new mk r) (fun _ => True).
Proof.
  intros h a h' Ln S E. unfold in_new in E. destruct r as [[[x|]|e]| | |]; cbn [rbind] in E; try discriminate;
    try (inversion E; subst; repeat split; auto; fail).
  by_fr E h n. eapply fr_bind; [apply fr_alloc; exact Logic.I|]. intros p _. now apply fr_ret.
Qed.
Lemma fr_value_ptr n t X v : fr n (value_ptr t X v) (fun _ => True).
Proof.
  assert (Al : forall s, fr n (p <- alloc (CPtr s) ;; ret (GVal (Some p))) (fun _ : gres (option loc) => True)).
  { intros s. eapply fr_bind; [apply fr_alloc; exact Logic.I|]. intros p _. now apply fr_ret. }
  assert (St : forall (r : gres (option loc)), fr n (fun h => Ok (r, h)) (fun _ => True)).
  { intros r h a h' Ln S E. inversion E; subst. repeat split; auto. }
  unfold value_ptr. destruct t as [| |k|[|]].
  - intros h a h' Ln S E. unfold value_GetString in E. fr_res E;
      first [eapply Al; eassumption | eapply St; eassumption].
  - intros h a h' Ln S E. unfold value_GetBool in E. fr_res E;
      first [eapply Al; eassumption | eapply St; eassumption].
  - intros h a h' Ln S E. eapply fr_in_new; eassumption.
  - intros h a h' Ln S E. eapply fr_in_new; eassumption.
  - intros h a h' Ln S E. eapply fr_in_new; eassumption.
Qed.
Lemma fr_map_ptr n t X m k : fr n (map_ptr t X m k) (fun _ => True).
Proof.
  unfold map_ptr.
  assert (V : fr n (fun h => map_via (GVal None, h) (fun v => value_ptr t X v h) h m k) (fun _ => True)).
  { intros h a h' Ln S E. unfold map_via in E.
    destruct (map_IsNull h m k) as [[|]| | |]; cbn [rbind] in E; try discriminate.
    - inversion E; subst. repeat split; auto.
    - destruct (map_GetValue h m k) as [[v|]| | |]; cbn [rbind] in E; try discriminate.
      eapply fr_value_ptr; eassumption. }
  destruct t as [| |[]|]; auto. intros h a h' _ _ E. discriminate.
Qed.
Lemma fr_collect n t X l : fr n (collect_ptrs t X l) (fun _ => True).
Proof.
  induction l as [|[v|] l IH]; cbn [collect_ptrs]; [now apply fr_ret| |].
  - eapply fr_bind; [apply fr_value_ptr|]. intros r _. eapply fr_bind; [exact IH|]. intros q _. now apply fr_ret.
  - eapply fr_bind; [exact IH|]. intros q _. now apply fr_ret.
Qed.
Lemma fr_arr_ptrs n t X a : fr n (arr_ptrs t X a) (fun _ => True).
Proof.
  unfold arr_ptrs.
  assert (V : fr n (l <- mlift (fun h => rd_arr h a) ;; q <- collect_ptrs t X l ;; ret (finish q)) (fun _ => True)).
  { eapply fr_bind; [apply fr_lift|]. intros l _. eapply fr_bind; [apply fr_collect|]. intros q _. now apply fr_ret. }
  destruct t as [| |[]|]; auto using fr_panic.
Qed.
Lemma fr_map_ptrs n t X m k : fr n (map_ptrs t X m k) (fun _ => True).
Proof.
  unfold map_ptrs.
  match goal with [ |- fr n (match t with TyStr => ?c | _ => _ end) _ ] => assert (V : fr n c (fun _ => True)) end.
  { eapply fr_bind; [apply fr_lift|]. intros [[a|]|e] _; try (now apply fr_ret).
    eapply fr_bind; [apply fr_arr_ptrs|]. intros q _. now apply fr_ret. }
  destruct t as [| |[]|]; auto using fr_panic.
Qed.

Lemma ask_keeps X L q h r h' : only_reads q = true -> ask X L q h = Ok (r, h') -> kept (length h) h h'.
Proof.
  intros R E.
  assert (Sp : sep (length h) h).
  { intros m mo Hm K. apply nth_error_lt in K. lia. }
  assert (B : forall A (m : M A) (f : A -> reply) h1 r1,
            fr (length h) m (fun _ => True) -> (x <- m ;; ret (f x)) h = Ok (r1, h1) -> kept (length h) h h1).
  { intros A m f h1 r1 F E1.
    assert (K : fr (length h) (x <- m ;; ret (f x)) (fun _ => True)).
    { eapply fr_bind; [exact F|]. intros x _. now apply fr_ret. }
    exact (proj1 (proj2 (proj2 (K _ _ _ (le_n _) Sp E1)))). }
  destruct q; cbn [ask] in E;
    try (eapply B; [|exact E]; first [apply fr_lift | apply fr_map_ptr | apply fr_value_ptr | apply fr_arr_ptrs | apply fr_map_ptrs
                     | apply fr_clone | apply fr_array_of | apply fr_map_of]; fail).
  - eapply B; [|exact E]. destruct c; try discriminate R; cbn [run_call];
      (eapply fr_bind; [first [apply fr_alloc; exact Logic.I | apply fr_lift | apply fr_new_value | apply fr_new_array | apply fr_new_map]|]);
      intros x _; try (now apply fr_ret).
    eapply fr_bind; [apply fr_lift|]. intros y _. now apply fr_ret.
  - unfold bind in E. destruct (Parse X s h) as [[x h1]| | |] eqn:P; inversion E; subst.
    assert (H0 : hrel [] h h) by (split; [intros a b a' b' []|intros a b []]).
    pose proof (Parse_rel X [] s [] h h (incl_refl _) H0) as Q. rewrite P in Q. cbn in Q. destruct Q as (q' & G & _).
    intros a Ha. apply (gr_frame _ _ _ _ _ _ G); auto.
Qed.

(** ** One program alone *)

Section Programs.
  Context (X : ext) (L : timelib) (NA : prints_no_address X).

  Fixpoint alone (n : nat) (g : prog) (h : heap) : prog * heap :=
    match n with O => (g, h) | S n => let (g', h') := alone n g h in turn X L g' h' end.
  Lemma alone_first n : forall g h, alone (S n) g h = let (g', h') := turn X L g h in alone n g' h'.
  Proof.
    induction n as [|n IH]; intros g h; [cbn; destruct (turn X L g h); reflexivity|].
    cbn [alone] in *. rewrite IH. destruct (turn X L g h) as [g' h']. reflexivity.
  Qed.
  Lemma alone_over n : forall g h, g_over g = true -> alone n g h = (g, h).
  Proof. induction n as [|n IH]; intros g h O; cbn [alone]; auto. rewrite IH by auto. unfold turn. now rewrite O. Qed.
  Lemma alone_play n c : forall s t h,
    play X L n c s t h = (g_seen (fst (alone n (Prog c s t false) h)), snd (alone n (Prog c s t false) h)).
  Proof.
    induction n as [|n IH]; intros s t h; [reflexivity|]. rewrite alone_first. cbn [play].
    unfold turn. cbn [g_over g_code g_seen g_table].
    destruct (c s) as [q|]; [|now rewrite alone_over].
    destruct (forallb (fun i => Nat.ltb i (length t)) (request_handles q)); [|now rewrite alone_over].
    destruct (ask X L (rename (fun i => nth i t 0) q) h) as [[r k]| | |]; try (now rewrite alone_over). apply IH.
  Qed.

  (** ** Turns of linked programs *)

  Record twin (p : links) (g g' : prog) : Prop := {
    tw_code : g_code g = g_code g';
    tw_seen : g_seen g = g_seen g';
    tw_over : g_over g = g_over g';
    tw_table : Forall2 (linked p) (g_table g) (g_table g') }.

  Lemma twin_refl_stop p g g' s b : twin p g g' -> twin p (Prog (g_code g) s (g_table g) b) (Prog (g_code g') s (g_table g') b).
  Proof. intros [A B C D]. split; auto. Qed.

  Lemma turn_rel p g g' h h' : hrel p h h' -> twin p g g' ->
    exists q, grows p h h' q (snd (turn X L g h)) (snd (turn X L g' h')) /\ twin q (fst (turn X L g h)) (fst (turn X L g' h')).
  Proof.
    intros H T. pose proof T as [Tc Ts To Tt]. unfold turn. rewrite <- To. destruct (g_over g) eqn:O.
    { exists p. split; [now apply grows_refl|exact T]. }
    rewrite <- Ts, <- Tc. destruct (g_code g (g_seen g)) as [q|].
    2:{ exists p. split; [now apply grows_refl|]. cbn [fst]. split; auto. }
    rewrite (F2_length _ _ _ Tt).
    destruct (forallb (fun i => Nat.ltb i (length (g_table g'))) (request_handles q)) eqn:E.
    2:{ exists p. split; [now apply grows_refl|]. cbn [fst]. split; auto. }
    assert (A : forall i, In i (request_handles q) -> In (nth i (g_table g) 0, nth i (g_table g') 0) p).
    { intros i Hi. rewrite forallb_forall in E. apply E in Hi. apply Nat.ltb_lt in Hi.
      apply table_rel; auto. now rewrite (F2_length _ _ _ Tt). }
    pose proof (ask_rel X L NA p _ _ q A p h h' (incl_refl _) H) as Q.
    destruct (ask X L (rename (fun i => nth i (g_table g) 0) q) h) as [[r k]| | |],
             (ask X L (rename (fun i => nth i (g_table g') 0) q) h') as [[r' k']| | |]; cbn in Q; try tauto;
      try (exists p; split; [now apply grows_refl|]; cbn [fst]; split; auto; fail).
    destruct Q as (p' & G & Ef & Eh).
    assert (F' : Forall2 (linked p') (g_table g ++ snd r) (g_table g' ++ snd r')).
    { apply Forall2_app; auto. eapply F2_linked_incl; [apply (gr_incl _ _ _ _ _ _ G) | exact Tt]. }
    exists p'. split; [exact G|]. cbn [fst]. split; auto. cbn [g_seen].
    now rewrite Ef, (places_rel p' _ _ _ _ (proj1 (gr_rel _ _ _ _ _ _ G)) F' Eh).
  Qed.

  Lemma turn_keeps g h : reader (g_code g) -> kept (length h) h (snd (turn X L g h)).
  Proof.
    intros Rd a Ha. unfold turn. destruct (g_over g); auto. destruct (g_code g (g_seen g)) as [q|] eqn:C; auto.
    destruct (forallb _ _); auto.
    destruct (ask X L (rename (fun i => nth i (g_table g) 0) q) h) as [[r k]| | |] eqn:E; auto. cbn [snd].
    apply (ask_keeps _ _ _ _ _ _) in E; auto. apply Rd in C. destruct q as [[]| | | | | | | | | | | | | | | | | | | | | | | | | |]; auto.
  Qed.
  Lemma turn_code g h : g_code (fst (turn X L g h)) = g_code g.
  Proof.
    unfold turn. destruct (g_over g); auto. destruct (g_code g (g_seen g)) as [q|] eqn:C; auto.
    destruct (forallb _ _); auto. destruct (ask X L _ h) as [[r k]| | |] eqn:E; auto.
  Qed.

  (** ** The team *)

  Context (h0 : heap) (members : list member).
  Hypothesis Hown : forall i c t S, nth_error members i = Some (c, t, S) -> self_contained (view h0) S /\ incl t S.
  Hypothesis Hapart : forall i j c t S c' t' S', i <> j ->
    nth_error members i = Some (c, t, S) -> nth_error members j = Some (c', t', S') -> apart S S' \/ (reader c /\ reader c').
  Hypothesis R0 : reachable X h0.

  Definition going (ns : nat -> nat) (gs : list prog) (h : heap) : Prop :=
    length gs = length members /\
    exists ps : nat -> links,
      (forall i g c t S, nth_error gs i = Some g -> nth_error members i = Some (c, t, S) ->
         g_code g = c /\ hrel (ps i) h (snd (alone (ns i) (start c t) h0)) /\ twin (ps i) g (fst (alone (ns i) (start c t) h0)))
      /\ (forall i j c t S c' t' S', i <> j -> nth_error members i = Some (c, t, S) -> nth_error members j = Some (c', t', S') ->
            apart S S' -> forall a b b', In (a, b) (ps i) -> In (a, b') (ps j) -> False).

  Lemma going_turn ns gs h i g : going ns gs h -> nth_error gs i = Some g ->
    going (fun j => if Nat.eqb i j then S (ns j) else ns j) (upd gs i (fst (turn X L g h))) (snd (turn X L g h)).
  Proof.
    intros (Len & ps & H & A) Eg. pose proof (nth_error_lt _ _ _ Eg) as Hi.
    split; [now rewrite upd_length|].
    destruct (nth_error members i) as [[[c t] S0]|] eqn:Em.
    2:{ apply nth_error_None in Em. lia. }
    destruct (H _ _ _ _ _ Eg Em) as (Cc & Hr & Tw).
    destruct (turn_rel _ _ _ _ _ Hr Tw) as (q & G & Tw').
    assert (Dom : forall j g' c' t' S' a b, j <> i -> nth_error gs j = Some g' -> nth_error members j = Some (c', t', S') ->
              In (a, b) (ps j) -> a < length h /\ nth_error (snd (turn X L g h)) a = nth_error h a).
    { intros j g' c' t' S' a b Nj Ej Emj I. destruct (H _ _ _ _ _ Ej Emj) as (_ & Hrj & _).
      destruct (proj2 Hrj _ _ I) as (x & y & Hx & _). apply nth_error_lt in Hx. split; auto.
      destruct (Hapart i j c t S0 c' t' S') as [Ap|[Rd _]]; auto.
      - apply (gr_frame _ _ _ _ _ _ G); auto. intros b' I'. exact (A i j _ _ _ _ _ _ (not_eq_sym Nj) Em Emj Ap _ _ _ I' I).
      - apply turn_keeps; auto. now rewrite Cc. }
    exists (fun j => if Nat.eqb i j then q else ps j). split.
    - intros j g' c' t' S' Ej Emj. rewrite nth_error_upd in Ej by auto.
      destruct (Nat.eqb_spec i j) as [<-|N].
      + inversion Ej; subst g'. rewrite Em in Emj. inversion Emj; subst c' t' S'. cbn [alone].
        destruct (alone (ns i) (start c t) h0) as [ga ha]. cbn [fst snd] in *.
        rewrite turn_code. split; [exact Cc|]. split; [exact (gr_rel _ _ _ _ _ _ G)|exact Tw'].
      + destruct (H _ _ _ _ _ Ej Emj) as (Cj & Hrj & Twj). split; auto. split; auto.
        split; [apply Hrj|]. intros a b I. destruct (proj2 Hrj _ _ I) as (x & y & Hx & Hy & Rxy).
        destruct (Dom _ _ _ _ _ _ _ (not_eq_sym N) Ej Emj I) as [_ Q]. exists x, y. rewrite Q. auto.
    - intros j k cj tj Sj ck tk Sk N Ej Ek Ap a b b' I I'.
      destruct (Nat.eqb_spec i j) as [<-|N1]; destruct (Nat.eqb_spec i k) as [<-|N2]; try congruence.
      + destruct (gr_new _ _ _ _ _ _ G _ _ I) as [K|[K _]]; [exact (A _ _ _ _ _ _ _ _ N Ej Ek Ap _ _ _ K I')|].
        destruct (nth_error gs k) as [gk|] eqn:Gk.
        2:{ apply nth_error_None in Gk. apply nth_error_lt in Ek. lia. }
        destruct (Dom _ _ _ _ _ _ _ (not_eq_sym N) Gk Ek I') as [Q _]. lia.
      + destruct (gr_new _ _ _ _ _ _ G _ _ I') as [K|[K _]]; [exact (A _ _ _ _ _ _ _ _ N Ej Ek Ap _ _ _ I K)|].
        destruct (nth_error gs j) as [gk|] eqn:Gk.
        2:{ apply nth_error_None in Gk. apply nth_error_lt in Ej. lia. }
        destruct (Dom _ _ _ _ _ _ _ N Gk Ej I) as [Q _]. lia.
      + exact (A _ _ _ _ _ _ _ _ N Ej Ek Ap _ _ _ I I').
  Qed.

  Lemma hidden_apart S S' a b b' : self_contained (view h0) S -> self_contained (view h0) S' -> apart S S' ->
    In (a, b) (with_hidden (diag S) h0 h0) -> In (a, b') (with_hidden (diag S') h0 h0) -> False.
  Proof.
    intros C1 C2 Ap I K. pose proof (reachable_Inv _ _ R0) as Iv.
    pose proof (self_alike _ _ C1) as A1. pose proof (self_alike _ _ C2) as A2.
    unfold with_hidden in I, K. apply in_app_or in I as [I|I]; apply in_app_or in K as [K|K].
    - apply in_diag in I as [_ I]. apply in_diag in K as [_ K]. exact (Ap _ I K).
    - apply hidden_in in K as (x & y & mo & mo' & _ & E & _ & -> & ->).
      apply (proj1 (obj_not_owned (diag S) h0 h0 Iv Iv A1 _ _ I)). exists x, mo; auto.
    - apply hidden_in in I as (x & y & mo & mo' & _ & E & _ & -> & ->).
      apply (proj1 (obj_not_owned (diag S') h0 h0 Iv Iv A2 _ _ K)). exists x, mo; auto.
    - apply hidden_in in I as (x & y & mo & mo' & I & E & _ & -> & _).
      apply hidden_in in K as (u & v & mu & mv & K & Eu & _ & Q & _).
      assert (x = u) by (exact (inv_own _ Iv _ _ _ _ E Eu Q)). subst u.
      apply in_diag in I as [_ I]. apply in_diag in K as [_ K]. exact (Ap _ I K).
  Qed.

  Lemma going_begin : going (fun _ => 0) (map begin members) h0.
  Proof.
    split; [apply map_length|].
    exists (fun i => match nth_error members i with Some (_, _, S1) => with_hidden (diag S1) h0 h0 | None => [] end).
    split.
    - intros i g c t S Eg Em. rewrite Em. destruct (Hown _ _ _ _ Em) as [C I].
      rewrite nth_error_map, Em in Eg. inversion Eg; subst. split; auto. cbn [alone fst snd].
      split; [apply alike_hrel; eauto using reachable_Inv, self_alike|]. split; auto. cbn.
      eapply F2_linked_incl; [|apply table_diag; eauto]. unfold with_hidden. intros x Hx. apply in_or_app; auto.
    - intros i j c t S c' t' S' N E E' Ap a b b' I I'. rewrite E in I. rewrite E' in I'.
      eapply (hidden_apart S S'); eauto; [eapply Hown; eauto|eapply Hown; eauto].
  Qed.

  Lemma going_team sched : forall ns gs h, going ns gs h ->
    going (fun j => count_occ Nat.eq_dec sched j + ns j) (fst (team X L sched gs h)) (snd (team X L sched gs h)).
  Proof.
    induction sched as [|i sched IH]; intros ns gs h H; cbn [team]; [exact H|].
    destruct (nth_error gs i) as [g|] eqn:E.
    - pose proof (going_turn _ _ _ _ _ H E) as H1. apply IH in H1. destruct (turn X L g h) as [g' h'] eqn:T. cbn [fst snd] in H1.
      destruct H1 as (Len & ps & H1 & A). split; auto. exists ps. split; auto.
      intros j gj c t S Ej Em. specialize (H1 j gj c t S Ej Em). cbn [count_occ].
      destruct (Nat.eqb_spec i j), (Nat.eq_dec i j); try congruence. rewrite Nat.add_succ_r in H1. exact H1.
    - apply IH in H. destruct H as (Len & ps & H1 & A). split; auto. exists ps. split; auto.
      intros j gj c t S Ej Em. specialize (H1 j gj c t S Ej Em). cbn [count_occ].
      destruct (Nat.eq_dec i j) as [<-|N]; auto. exfalso.
      assert (Lg : forall sc gs0 h1, length (fst (team X L sc gs0 h1)) = length gs0).
      { clear. induction sc as [|x sc IH]; intros gs0 h1; cbn [team]; auto.
        destruct (nth_error gs0 x) as [gx|]; [|apply IH]. destruct (turn X L gx h1). rewrite IH. apply upd_length. }
      apply nth_error_lt in Ej. rewrite Lg in Ej. apply nth_error_None in E. lia.
  Qed.

  Lemma team_unnoticed sched i c t S : nth_error members i = Some (c, t, S) ->
    exists g, nth_error (fst (team X L sched (map begin members) h0)) i = Some g
      /\ g_seen g = fst (play X L (count_occ Nat.eq_dec sched i) c [] t h0).
  Proof.
    intros Em. destruct (going_team sched _ _ _ going_begin) as (Len & ps & H & _).
    destruct (nth_error (fst (team X L sched (map begin members) h0)) i) as [g|] eqn:E.
    2:{ apply nth_error_None in E. apply nth_error_lt in Em. lia. }
    exists g. split; auto. destruct (H _ _ _ _ _ E Em) as (_ & _ & Tw). rewrite Nat.add_0_r in Tw.
    rewrite (tw_seen _ _ _ Tw), alone_play. reflexivity.
  Qed.
End Programs.
