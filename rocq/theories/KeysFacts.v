(** * Facts about the slice of keys *)
From Coq Require Import Ascii String List NArith ZArith Bool Lia.
From Verif Require Import GoStr StrLemmas GoNum GoFloat Heap Common ValueModel ArrayModel MapModel
  SpecDict DictLemmas SpecWorld Inv World Reach MapFacts KeysSlice SpecKeys.
Import ListNotations.

Lemma upd_split {A} (l : list A) i x : i < length l -> upd l i x = firstn i l ++ x :: skipn (S i) l.
Proof.
  revert i. induction l as [|y l IH]; intros [|i] H; cbn in *; try lia; auto.
  f_equal. apply IH. lia.
Qed.

Lemma nth_upd_same {A} (l : list A) i x d : i < length l -> nth i (upd l i x) d = x.
Proof. revert i. induction l as [|y l IH]; intros [|i] H; cbn in *; try lia; auto. apply IH. lia. Qed.
Lemma nth_upd_other {A} (l : list A) i j x d : i <> j -> nth j (upd l i x) d = nth j l d.
Proof.
  revert i j. induction l as [|y l IH]; intros [|i] [|j] H; cbn in *; try lia; auto.
Qed.

Lemma skipn_twice {A} (l : list A) : forall n m, skipn n (skipn m l) = skipn (n + m) l.
Proof.
  induction l as [|x l IH]; intros n m; [now rewrite !skipn_nil|].
  destruct m as [|m]; [now rewrite Nat.add_0_r|]. rewrite Nat.add_succ_r. apply IH.
Qed.

Lemma overwrite_spec xs : forall l i, i + length xs <= length l ->
  overwrite l i xs = firstn i l ++ xs ++ skipn (i + length xs) l.
Proof.
  induction xs as [|x xs IH]; intros l i H; cbn [overwrite length app] in *.
  - rewrite Nat.add_0_r. now rewrite firstn_skipn.
  - rewrite IH by (rewrite upd_length; lia). rewrite upd_split by lia.
    assert (L : length (firstn i l) = i) by (rewrite firstn_length; lia).
    rewrite firstn_app, L. replace (S i - i) with 1 by lia.
    rewrite (firstn_all2 (n := S i) (firstn i l)) by lia. cbn [firstn]. rewrite <- app_assoc. cbn [app]. do 3 f_equal.
    rewrite skipn_app, L. rewrite skipn_all2 by (rewrite L; lia). cbn [app].
    replace (S i + length xs - i) with (S (length xs)) by lia.
    change (skipn (S (length xs)) (x :: skipn (S i) l)) with (skipn (length xs) (skipn (S i) l)).
    rewrite skipn_twice. f_equal. lia.
Qed.

Lemma content_length mem s : svalid mem s -> length (content mem s) = s_len s.
Proof. intros (_ & L & C). unfold content. rewrite firstn_length. lia. Qed.

(** ** append *)
Lemma append_ok grow mem s xs mem' s' :
  svalid mem s -> go_append grow mem s xs = (mem', s') ->
  svalid mem' s' /\ content mem' s' = content mem s ++ xs
  /\ length mem <= length mem'
  /\ (forall t, svalid mem t -> (s_base t = s_base s -> s_len t <= s_len s) ->
        svalid mem' t /\ content mem' t = content mem t).
Proof.
  intros (B & L & C). unfold go_append. destruct (Nat.leb_spec (s_len s + length xs) (s_cap s)) as [F|F];
    intros [= <- <-].
  - assert (W : nth (s_base s) (upd mem (s_base s) (overwrite (nth (s_base s) mem []) (s_len s) xs)) []
                = firstn (s_len s) (nth (s_base s) mem []) ++ xs ++ skipn (s_len s + length xs) (nth (s_base s) mem [])).
    { rewrite nth_upd_same by auto. apply overwrite_spec. lia. }
    assert (LF : length (firstn (s_len s) (nth (s_base s) mem [])) = s_len s) by (rewrite firstn_length; lia).
    repeat split; cbn [s_base s_len s_cap].
    + now rewrite upd_length.
    + exact F.
    + rewrite W, !app_length, skipn_length, LF. lia.
    + unfold content. cbn [s_base s_len]. rewrite W, app_assoc, firstn_app, app_length, LF, Nat.sub_diag. cbn [firstn].
      rewrite app_nil_r. apply firstn_all2. rewrite app_length. lia.
    + rewrite upd_length. lia.
    + rewrite upd_length. apply H.
    + apply H.
    + destruct (Nat.eq_dec (s_base t) (s_base s)) as [E|E].
      * destruct H as (_ & _ & H). rewrite E in *. rewrite W, !app_length, skipn_length, LF. lia.
      * rewrite nth_upd_other by auto. apply H.
    + unfold content. destruct (Nat.eq_dec (s_base t) (s_base s)) as [E|E].
      * rewrite E, W, firstn_app, LF. specialize (H0 E). replace (s_len t - s_len s) with 0 by lia. cbn [firstn].
        rewrite app_nil_r, firstn_firstn. f_equal. lia.
      * now rewrite nth_upd_other by auto.
  - set (c := Nat.max (s_len s + length xs) (grow mem)).
    assert (LC : length (content mem s) = s_len s) by (apply content_length; repeat split; auto).
    repeat split; cbn [s_base s_len s_cap].
    + rewrite app_length. cbn. lia.
    + unfold c. lia.
    + rewrite app_nth2, Nat.sub_diag by lia. cbn [nth]. rewrite !app_length, repeat_length, LC. lia.
    + unfold content at 1. cbn [s_base s_len]. rewrite app_nth2, Nat.sub_diag by lia. cbn [nth].
      rewrite app_assoc, firstn_app, app_length, LC, Nat.sub_diag. cbn [firstn]. rewrite app_nil_r.
      apply firstn_all2. rewrite app_length. lia.
    + rewrite app_length. lia.
    + rewrite app_length. destruct H. lia.
    + apply H.
    + rewrite app_nth1 by apply H. apply H.
    + unfold content. now rewrite app_nth1 by apply H.
Qed.

(** ** A snapshot and the map *)
Lemma kvalid_new : kvalid k_new.
Proof. repeat split; cbn; lia. Qed.

Lemma find_index_some k l i : find_index k l = Some i ->
  i < length l /\ exists a b, l = a ++ k :: b /\ length a = i.
Proof.
  revert i. induction l as [|x l IH]; intros i H; cbn in H; [discriminate|].
  destruct (str_eqb x k) eqn:E.
  - injection H as <-. apply str_eqb_eq in E. subst. split; [cbn; lia|]. now exists [], l.
  - destruct (find_index k l) as [n|]; [|discriminate]. injection H as <-.
    destruct (IH n eq_refl) as (L & a & b & -> & La). split; [cbn; lia|]. exists (x :: a), b. cbn. auto.
Qed.

(** Setting a key keeps every slice handed out earlier whose length is at most that of
    the keys. *)
Definition older (K : kmap) (t : slice) : Prop :=
  svalid (k_mem K) t /\ (s_base t = s_base (k_keys K) -> s_len t <= s_len (k_keys K)).

Lemma go_append_len grow mem s xs : s_len (snd (go_append grow mem s xs)) = s_len s + length xs
  /\ (s_base (snd (go_append grow mem s xs)) = s_base s \/ s_base (snd (go_append grow mem s xs)) = length mem).
Proof. unfold go_append. destruct (Nat.leb _ _); cbn; auto. Qed.

Lemma k_set_ok grow k K : kvalid K ->
  kvalid (k_set grow k K)
  /\ k_content (k_set grow k K) = (if in_dec (list_eq_dec ascii_dec) k (k_content K) then k_content K else k_content K ++ [k])
  /\ (forall t, older K t -> older (k_set grow k K) t /\ content (k_mem (k_set grow k K)) t = content (k_mem K) t).
Proof.
  intros V. unfold k_set. destruct (find_index k (k_content K)) as [i|] eqn:E.
  - destruct (find_index_some _ _ _ E) as (_ & a & b & EE & _).
    destruct (in_dec _ _ _) as [I|I]; [|exfalso; apply I; rewrite EE; apply in_elt]. auto.
  - apply find_index_None in E. destruct (in_dec _ _ _) as [I|I]; [contradiction|].
    destruct (go_append grow (k_mem K) (k_keys K) [k]) as [mem' s'] eqn:A.
    pose proof (go_append_len grow (k_mem K) (k_keys K) [k]) as [Ln Bs]. rewrite A in Ln, Bs. cbn in Ln, Bs.
    destruct (append_ok _ _ _ _ _ _ V A) as (V' & C' & _ & Fr).
    split; [exact V'|]. split; [exact C'|]. intros t [Vt Ht]. destruct (Fr t Vt Ht) as [Vt' Ct'].
    split; [|exact Ct']. split; [exact Vt'|]. cbn. intros Eb. rewrite Ln. destruct Bs as [Bs|Bs].
    + specialize (Ht (eq_trans Eb Bs)). lia.
    + destruct Vt as [Vt _]. lia.
Qed.

Lemma list_remove_split {A} (a : list A) x b : list_remove (a ++ x :: b) (length a) = a ++ b.
Proof. induction a; cbn; auto. now f_equal. Qed.

Lemma last_nth {A} (l : list A) d : last l d = nth (length l - 1) l d.
Proof.
  induction l as [|x [|y l] IH]; auto. change (last (x :: y :: l) d) with (last (y :: l) d). rewrite IH.
  cbn [length]. replace (S (S (length l)) - 1) with (S (length l)) by lia. cbn [nth].
  replace (S (length l) - 1) with (length l) by lia. reflexivity.
Qed.

Lemma k_remove_in grow k K a b : kvalid K -> k_content K = a ++ k :: b -> ~ In k a ->
  kvalid (k_remove grow k K)
  /\ k_content (k_remove grow k K) = a ++ b
  /\ content (k_mem (k_remove grow k K)) (k_keys K) = a ++ b ++ [last b k]
  /\ s_base (k_keys (k_remove grow k K)) = s_base (k_keys K)
  /\ svalid (k_mem (k_remove grow k K)) (k_keys K).
Proof.
  intros V E N. unfold k_remove.
  assert (Fi : find_index k (k_content K) = Some (length a)).
  { rewrite E. clear - N. induction a as [|x a IH]; cbn.
    - now rewrite str_eqb_refl.
    - destruct (str_eqb x k) eqn:Q; [apply str_eqb_eq in Q; subst; exfalso; apply N; now left|].
      rewrite IH; auto. intros I. apply N. now right. }
  rewrite Fi. set (s := k_keys K).
  assert (Sk : skipn (S (length a)) (k_content K) = b).
  { rewrite E. rewrite skipn_app, skipn_all2 by lia. replace (S (length a) - length a) with 1 by lia. reflexivity. }
  rewrite Sk.
  assert (Ln : s_len s = length a + S (length b)).
  { pose proof (content_length _ _ V) as CL. unfold k_content in E. rewrite E, app_length in CL. cbn in CL. fold s in CL. lia. }
  pose proof V as (B & L & C). fold s in B, L, C.
  unfold go_append. cbn [s_base s_len s_cap].
  destruct (Nat.leb_spec (length a + length b) (s_cap s)) as [F|F]; [|lia].
  set (l := nth (s_base s) (k_mem K) []) in *.
  assert (El : firstn (s_len s) l = a ++ k :: b) by exact E.
  assert (W : overwrite l (length a) b = a ++ b ++ skipn (length a + length b) l).
  { rewrite overwrite_spec by lia. f_equal.
    transitivity (firstn (length a) (firstn (s_len s) l)).
    - rewrite firstn_firstn. f_equal. lia.
    - rewrite El, firstn_app, Nat.sub_diag. cbn [firstn]. rewrite app_nil_r. apply firstn_all. }
  assert (Lw : length (overwrite l (length a) b) = s_cap s).
  { rewrite W, !app_length, skipn_length. lia. }
  repeat split; cbn [k_mem k_keys s_base s_len s_cap]; rewrite ?upd_length; auto.
  - rewrite nth_upd_same by auto. exact Lw.
  - unfold k_content, content. cbn [k_mem k_keys s_base s_len]. rewrite nth_upd_same by auto. rewrite W, app_assoc.
    rewrite firstn_app, app_length, Nat.sub_diag. cbn [firstn]. rewrite app_nil_r. apply firstn_all2. rewrite app_length. lia.
  - unfold content. fold s. rewrite nth_upd_same by auto. rewrite W, Ln.
    rewrite app_assoc, firstn_app, app_length. rewrite firstn_all2 by (rewrite app_length; lia).
    replace (length a + S (length b) - (length a + length b)) with 1 by lia.
    rewrite app_assoc. f_equal.
    assert (Nt : nth (length a + length b) l [] = last b k).
    { transitivity (nth (length a + length b) (firstn (s_len s) l) []).
      - rewrite <- (firstn_skipn (s_len s) l) at 1. apply app_nth1. rewrite firstn_length. lia.
      - rewrite El, app_nth2 by lia. replace (length a + length b - length a) with (length b) by lia.
        destruct b as [|y b] using rev_ind; [reflexivity|]. rewrite last_last, app_length. cbn [length].
        replace (length b + 1) with (S (length b)) by lia. cbn [nth]. rewrite app_nth2, Nat.sub_diag by lia. reflexivity. }
    assert (Hl : length a + length b < length l) by lia.
    clear - Nt Hl. revert Nt Hl. generalize (length a + length b). intros n Nt Hl.
    rewrite <- Nt. clear Nt. revert n Hl. induction l as [|x l IH]; intros [|n] H; cbn in *; try lia; auto. apply IH. lia.
  - rewrite nth_upd_same by auto. exact Lw.
Qed.

Lemma k_remove_notin grow k K : ~ In k (k_content K) -> k_remove grow k K = K.
Proof.
  intros N. unfold k_remove. destruct (find_index k (k_content K)) as [i|] eqn:E; auto.
  destruct (find_index_some _ _ _ E) as (_ & a & b & EE & _). exfalso. apply N. rewrite EE. apply in_elt.
Qed.

Lemma in_first {A} (dec : forall x y : A, {x = y} + {x <> y}) (k : A) l : In k l -> exists a b, l = a ++ k :: b /\ ~ In k a.
Proof.
  induction l as [|x l IH]; [intros []|]. intros H. destruct (dec x k) as [->|N].
  - now exists [], l.
  - destruct H as [->|H]; [congruence|]. destruct (IH H) as (a & b & -> & Na). exists (x :: a), b. split; auto.
    intros [?|?]; auto.
Qed.

Lemma k_step_valid grow o K : kvalid K -> kvalid (k_step grow o K).
Proof.
  intros V. destruct o as [k|k]; cbn.
  - exact (proj1 (k_set_ok grow k K V)).
  - destruct (in_dec (list_eq_dec ascii_dec) k (k_content K)) as [I|I].
    + destruct (in_first (list_eq_dec ascii_dec) k _ I) as (a & b & E & N). exact (proj1 (k_remove_in grow k K a b V E N)).
    + now rewrite k_remove_notin.
Qed.

Lemma k_run_valid grow os : forall K, kvalid K -> kvalid (k_run grow os K).
Proof. induction os as [|o os IH]; intros K V; cbn; auto. apply IH, k_step_valid, V. Qed.

Lemma snapshot_keeps grow os : forall K t, kvalid K -> older K t -> no_removal grow os K ->
  content (k_mem (k_run grow os K)) t = content (k_mem K) t.
Proof.
  induction os as [|o os IH]; intros K t V O H; cbn; auto. destruct H as [H1 H2].
  pose proof (k_step_valid grow o K V) as V'.
  assert (S : older (k_step grow o K) t /\ content (k_mem (k_step grow o K)) t = content (k_mem K) t).
  { destruct o as [k|k]; cbn in *.
    - exact (proj2 (proj2 (k_set_ok grow k K V)) t O).
    - now rewrite k_remove_notin. }
  destruct S as [O' C']. rewrite IH; auto.
Qed.

Lemma older_self K : kvalid K -> older K (k_keys K).
Proof. intros V. split; auto. Qed.

(** ** The keys of MapModel.v are those of the slice *)
Lemma k_step_dict (V : Type) (v : V) grow o K (d d' : dict V) : kvalid K -> dict_ok d -> k_content K = map fst d ->
  (match o with KSet k => d' = dict_set d k v | KRemove k => d' = dict_remove d k end) ->
  k_content (k_step grow o K) = map fst d'.
Proof.
  intros Va D E H. destruct o as [k|k]; subst d'; cbn [k_step].
  - destruct (k_set_ok grow k K Va) as (_ & -> & _). rewrite E.
    pose proof (dict_keys_set d k v) as KS. unfold dict_keys in KS. rewrite KS.
    unfold dict_has. destruct (in_dec _ _ _) as [I|I].
    + apply dict_has_keys in I. unfold dict_has in I. now rewrite I.
    + destruct (dict_get d k) eqn:G; auto. exfalso. apply I, dict_has_keys. unfold dict_has. now rewrite G.
  - destruct (in_dec (list_eq_dec ascii_dec) k (k_content K)) as [I|I].
    + destruct (in_first (list_eq_dec ascii_dec) k _ I) as (a & b & Ea & N).
      destruct (k_remove_in grow k K a b Va Ea N) as (_ & -> & _).
      rewrite E in Ea. clear - Ea D N. revert a Ea N.
      induction d as [|[k' w] d IH]; intros a Ea N; cbn in *; [destruct a; discriminate|].
      destruct a as [|x a]; cbn in Ea.
      * injection Ea as -> <-. now rewrite str_eqb_refl.
      * injection Ea as -> Ea. destruct (str_eqb x k) eqn:Q; [apply str_eqb_eq in Q; subst; exfalso; apply N; now left|].
        cbn. f_equal. apply IH; auto. now inversion D. intros ?. apply N. now right.
    + rewrite k_remove_notin by auto. rewrite E in *. now rewrite dict_remove_notin by (apply dict_get_None; auto).
Qed.

Lemma key_op_call grow m c w K : kvalid K -> (forall d, w_map w m = Some d -> dict_ok d) -> has (w_map w) m ->
  (match c with ANewMap => S (w_next w) <> m | _ => True end) -> ok_call w c ->
  k_content K = dict_keys (map_at w m) ->
  kvalid (k_run grow (key_op m c) K)
  /\ k_content (k_run grow (key_op m c) K) = dict_keys (map_at (snd (spec_call c w)) m).
Proof.
  intros V D (d & Hd) Nm OK E. split; [now apply k_run_valid|].
  assert (Ed : map_at w m = d) by (unfold map_at; now rewrite Hd). rewrite Ed in E. specialize (D d Hd).
  assert (Same : forall w', w_map w' m = w_map w m -> k_content K = dict_keys (map_at w' m)).
  { intros w' W. unfold map_at. rewrite W, Hd. exact E. }
  assert (Put : forall w' (d' : dict (option nat)), w_map w' m = Some d' -> map_at w' m = d').
  { intros w' d' W. unfold map_at. now rewrite W. }
  destruct c; cbn [key_op k_run spec_call snd]; try (apply Same; reflexivity).
  - apply Same. cbn. unfold put. destruct (Nat.eqb_spec m (S (w_next w))); congruence.
  - destruct (Nat.eqb_spec m0 m) as [->|N]; cbn [k_run].
    + rewrite (Put _ (dict_set (map_at w m) k o)) by (cbn; unfold put; now rewrite Nat.eqb_refl).
      rewrite Ed. apply (k_step_dict _ o grow (KSet k) K d); auto.
    + apply Same. cbn. unfold put. destruct (Nat.eqb_spec m m0); congruence.
  - destruct (Nat.eqb_spec m0 m) as [->|N]; cbn [k_run].
    + rewrite (Put _ (dict_set (map_at w m) k (Some (w_next w)))) by (cbn; unfold put; now rewrite Nat.eqb_refl).
      rewrite Ed. apply (k_step_dict _ (Some (w_next w)) grow (KSet k) K d); auto.
    + apply Same. cbn. unfold put. destruct (Nat.eqb_spec m m0); congruence.
  - destruct (Nat.eqb_spec m0 m) as [->|N]; cbn [k_run].
    + rewrite (Put _ (dict_set (map_at w m) k (Some (S (w_next w))))) by (cbn; unfold put; now rewrite Nat.eqb_refl).
      rewrite Ed. apply (k_step_dict _ (Some (S (w_next w))) grow (KSet k) K d); auto.
    + apply Same. cbn. unfold put. destruct (Nat.eqb_spec m m0); congruence.
  - destruct (Nat.eqb_spec m0 m) as [->|N]; cbn [k_run].
    + rewrite Ed. destruct (dict_has d k) eqn:H; cbn [snd].
      * rewrite (Put _ (dict_remove d k)) by (cbn; unfold put; now rewrite Nat.eqb_refl).
        apply (k_step_dict _ None grow (KRemove k) K d); auto.
      * rewrite Ed. assert (G : dict_get d k = None) by (unfold dict_has in H; destruct (dict_get d k); congruence).
        rewrite <- (dict_remove_notin d k G). apply (k_step_dict _ None grow (KRemove k) K d); auto.
    + destruct (dict_has (map_at w m0) k); cbn [snd]; apply Same; auto.
      cbn. unfold put. destruct (Nat.eqb_spec m m0); congruence.
  - destruct (valid_index _ _); apply Same; reflexivity.
  - destruct (valid_index _ _); apply Same; reflexivity.
Qed.

Lemma map_bounded h w m : impl h w -> has (w_map w) m -> m < w_next w.
Proof.
  intros P (d & H). apply (im_map _ _ P) in H. destruct H as (mo & H & _). rewrite (im_next _ _ P).
  apply nth_error_Some. congruence.
Qed.

Lemma has_map_call c w m : has (w_map w) m -> has (w_map (snd (spec_call c w))) m.
Proof.
  intros (d & H).
  assert (P : forall m' (d' : dict (option nat)), has (put (w_map w) m' d') m).
  { intros m' d'. unfold put, has. destruct (Nat.eqb m m'); eauto. }
  destruct c; cbn [spec_call snd]; try (exists d; exact H); try apply P.
  - destruct (dict_has _ _); [apply P|exists d; exact H].
  - destruct (valid_index _ _); exists d; exact H.
  - destruct (valid_index _ _); exists d; exact H.
Qed.

Lemma key_ops_calls grow m cs : forall h w K,
  Inv h -> impl h w -> ok_calls cs w -> has (w_map w) m -> kvalid K -> k_content K = dict_keys (map_at w m) ->
  k_content (k_run grow (key_ops m cs) K) = dict_keys (map_at (snd (spec_calls cs w)) m).
Proof.
  induction cs as [|c cs IH]; intros h w K I P OK Hm V E; [exact E|].
  destruct OK as [K1 K2]. destruct (run_call_ok _ _ _ I P K1) as (h1 & E1 & I1 & X1 & P1).
  destruct (key_op_call grow m c w K V) as [V' E']; auto.
  - intros d Hd. apply (im_map _ _ P) in Hd. eapply map_dict_ok; eauto.
  - pose proof (map_bounded _ _ _ P Hm). destruct c; auto. lia.
  - pose proof (has_map_call c w m Hm) as Hm'. cbn [spec_calls].
    destruct (spec_call c w) as [o w1]. cbn [snd] in *.
    pose proof (IH h1 w1 _ I1 P1 K2 Hm' V' E') as Q.
    destruct (spec_calls cs w1) as [os w2]. cbn [snd] in *. rewrite <- Q. f_equal.
    unfold key_ops. cbn [flat_map]. generalize (flat_map (key_op m) cs). intros l.
    clear. revert K. induction (key_op m c) as [|x t IHt]; intros K; cbn [app k_run]; auto.
Qed.

Lemma keys_machine X h m cs grow K :
  reachable X h -> has (w_map (view h)) m -> ok_calls cs (view h) ->
  kvalid K -> run_call (AMapGetKeys m) h = Ok (OKeys (k_content K), h) ->
  exists os h', run_calls cs h = Ok (os, h')
    /\ run_call (AMapGetKeys m) h' = Ok (OKeys (k_content (k_run grow (key_ops m cs) K)), h').
Proof.
  intros R Hm OK V G. pose proof (reachable_Inv _ _ R) as I. pose proof (view_impl _ I) as P.
  destruct (run_calls_ok cs h (view h) I P OK) as (h' & E & I' & _ & P'). exists (fst (spec_calls cs (view h))), h'.
  split; [exact E|].
  destruct (run_call_ok _ (view h) (AMapGetKeys m) I P Hm) as (h1 & E1 & _). cbn [spec_call fst] in E1.
  rewrite E1 in G. injection G as Gk Gh.
  assert (Hm' : has (w_map (snd (spec_calls cs (view h)))) m).
  { clear - Hm. revert Hm. generalize (view h). induction cs as [|c cs IH]; intros w Hm; auto.
    cbn. pose proof (has_map_call c w m Hm) as H. destruct (spec_call c w) as [o w1]. cbn in H. specialize (IH w1 H).
    destruct (spec_calls cs w1). exact IH. }
  destruct (run_call_ok _ _ (AMapGetKeys m) I' P' Hm') as (h2 & E2 & _).
  assert (h2 = h') as ->.
  { cbn [run_call] in E2. unfold bind, mlift, ret in E2. destruct (map_GetKeys h' m); cbn [rbind] in E2; congruence. }
  rewrite E2. cbn [spec_call fst]. do 3 f_equal.
  symmetry. now apply (key_ops_calls grow m cs h (view h) K I P OK Hm V).
Qed.

(** ** Histories of a new map *)
Lemma keys_kept grow before after :
  let K := k_run grow before k_new in
  no_removal grow after K ->
  content (k_mem (k_run grow after K)) (k_GetKeys K) = k_content K.
Proof. intros K H. apply snapshot_keeps; auto; [|apply older_self]; apply k_run_valid, kvalid_new. Qed.

Lemma keys_shifted grow before k a b :
  let K := k_run grow before k_new in
  k_content K = a ++ k :: b -> ~ In k a ->
  content (k_mem (k_remove grow k K)) (k_GetKeys K) = a ++ b ++ [last b k]
  /\ k_content (k_remove grow k K) = a ++ b.
Proof.
  intros K E N. destruct (k_remove_in grow k K a b) as (_ & H1 & H2 & _); auto. apply k_run_valid, kvalid_new.
Qed.

(** A write to the slice is a write to the keys of the map. *)
Lemma keys_written grow before i x :
  let K := k_run grow before k_new in
  i < length (k_content K) ->
  k_content (k_write (k_GetKeys K) i x K) = upd (k_content K) i x.
Proof.
  intros K H. assert (V : kvalid K) by apply k_run_valid, kvalid_new. destruct V as (B & L & C).
  unfold k_content, k_write, content, k_GetKeys in *. cbn [k_mem k_keys].
  rewrite nth_upd_same by auto. rewrite firstn_length in H. clearbody K. clear - H.
  revert H. generalize (nth (s_base (k_keys K)) (k_mem K) []) (s_len (k_keys K)). intros l n.
  revert n i. induction l as [|y l IH]; intros [|n] [|i] H; cbn in *; try lia; auto. f_equal. apply IH. lia.
Qed.

(** ** Values() hands out the private list of the map *)
Lemma values_live X h m o :
  reachable X h -> has (w_map (view h)) m ->
  exists ks vs a h',
    map_GetKeys h m = Ok ks /\ map_Values h m = Ok a /\ arr_GetValues h a = Ok vs /\ length vs = length ks
    /\ arr_AppendValue a o h = Ok (tt, h')
    /\ map_GetKeys h' m = Ok ks /\ map_Values h' m = Ok a /\ arr_GetValues h' a = Ok (vs ++ [o]).
Proof.
  intros R (d & H). pose proof (reachable_Inv _ _ R) as I. apply (im_map _ _ (view_impl _ I)) in H.
  destruct H as (mo & Hm & Hk & Hv & _).
  exists (m_keys mo), (dict_values d), (m_vals mo), (upd h (m_vals mo) (CArr (dict_values d ++ [o]))).
  assert (L : (m_vals mo < length h)%nat) by (apply nth_error_Some; congruence).
  assert (N : m_vals mo <> m) by (intros E; rewrite E in Hv; congruence).
  unfold map_GetKeys, map_Values, arr_GetValues, arr_AppendValue.
  rewrite (proj2 (rd_map_iff _ _ _) Hm), (proj2 (rd_arr_iff _ _ _) Hv). cbn [rbind].
  assert (Hm' : rd_map (upd h (m_vals mo) (CArr (dict_values d ++ [o]))) m = Ok mo).
  { apply rd_map_iff. rewrite nth_error_upd by auto. destruct (Nat.eqb_spec (m_vals mo) m); [congruence|auto]. }
  rewrite Hm'. cbn [rbind]. split; auto. split; auto. split; auto. split.
  { rewrite Hk. unfold dict_values, dict_keys. now rewrite !map_length. }
  split; [now apply wr_ok|]. split; auto. split; auto.
  apply rd_arr_iff. rewrite nth_error_upd, Nat.eqb_refl; auto.
Qed.

(** ** Three keys, the first one removed *)
Lemma keys_of_sets grow ks : NoDup ks -> forall K, kvalid K -> (forall k, In k ks -> ~ In k (k_content K)) ->
  k_content (k_run grow (map KSet ks) K) = k_content K ++ ks.
Proof.
  induction 1 as [|k ks N _ IH]; intros K V H; cbn [map k_run]; [now rewrite app_nil_r|].
  destruct (k_set_ok grow k K V) as (V' & C & _).
  destruct (in_dec (list_eq_dec ascii_dec) k (k_content K)) as [I|I]; [exfalso; eapply H; [now left|exact I]|].
  cbn [k_step]. rewrite IH; auto.
  - rewrite C, <- app_assoc. reflexivity.
  - intros k' I'. rewrite C, in_app_iff. intros [Q|[Q|[]]]; [apply (H k'); [now right|exact Q]|congruence].
Qed.

Lemma keys_refuted grow : exists before k,
  let K := k_run grow before k_new in
  k_content K = [lit "a"; lit "b"; lit "c"]
  /\ content (k_mem (k_step grow (KRemove k) K)) (k_GetKeys K) = [lit "b"; lit "c"; lit "c"].
Proof.
  exists (map KSet [lit "a"; lit "b"; lit "c"]), (lit "a"). cbn zeta.
  assert (E : k_content (k_run grow (map KSet [lit "a"; lit "b"; lit "c"]) k_new) = [lit "a"; lit "b"; lit "c"]).
  { rewrite keys_of_sets; [reflexivity| |apply kvalid_new|cbn; tauto].
    repeat constructor; vm_compute; intuition discriminate. }
  split; [exact E|].
  destruct (keys_shifted grow (map KSet [lit "a"; lit "b"; lit "c"]) (lit "a") [] [lit "b"; lit "c"] E) as [H _]; auto.
Qed.
