(** * Lemmas about the Go string functions of GoStr.v *)
From Coq Require Import Ascii String List NArith ZArith Bool Lia.
From Verif Require Import GoStr.
Import ListNotations.
Local Open Scope list_scope.

Lemma ascii_eqb_refl c : Ascii.eqb c c = true.
Proof. apply Ascii.eqb_refl. Qed.

Lemma str_eqb_eq a b : str_eqb a b = true <-> a = b.
Proof.
  revert b; induction a as [|x a IH]; intros [|y b]; cbn; split; intro H; try congruence.
  - apply andb_true_iff in H as [H1 H2]. apply Ascii.eqb_eq in H1. apply IH in H2. congruence.
  - inversion H; subst. rewrite Ascii.eqb_refl. cbn. now apply IH.
Qed.

Lemma str_eqb_refl a : str_eqb a a = true.
Proof. now apply str_eqb_eq. Qed.

Lemma str_eqb_neq a b : str_eqb a b = false <-> a <> b.
Proof.
  destruct (str_eqb a b) eqn:E.
  - apply str_eqb_eq in E. split; congruence.
  - split; auto. intros _ ->. rewrite str_eqb_refl in E. discriminate.
Qed.

Lemma str_eqb_spec a b : reflect (a = b) (str_eqb a b).
Proof.
  destruct (str_eqb a b) eqn:E; constructor.
  - now apply str_eqb_eq.
  - now apply str_eqb_neq.
Qed.

Lemma str_eqb_sym a b : str_eqb a b = str_eqb b a.
Proof.
  destruct (str_eqb_spec a b), (str_eqb_spec b a); congruence.
Qed.

Lemma str_eq_dec (a b : str) : {a = b} + {a <> b}.
Proof. apply list_eq_dec, ascii_dec. Defined.

Lemma has_prefix_app p s : has_prefix p (p ++ s) = true.
Proof. induction p; cbn; auto. now rewrite Ascii.eqb_refl. Qed.

Lemma has_prefix_iff p s : has_prefix p s = true <-> exists t, s = p ++ t.
Proof.
  revert s; induction p as [|x p IH]; intros s; cbn.
  - split; eauto.
  - destruct s as [|y s].
    + split; [discriminate | intros [t H]; discriminate].
    + rewrite andb_true_iff, Ascii.eqb_eq, IH. split.
      * intros [-> [t ->]]. now exists t.
      * intros [t H]. inversion H; subst. eauto.
Qed.

Lemma has_suffix_iff p s : has_suffix p s = true <-> exists t, s = t ++ p.
Proof.
  unfold has_suffix. rewrite has_prefix_iff. split; intros [t H].
  - exists (rev t). rewrite <- (rev_involutive s), H, rev_app_distr, rev_involutive. reflexivity.
  - exists (rev t). subst. now rewrite rev_app_distr.
Qed.

Lemma has_prefix1 c s : has_prefix [c] s = match s with x :: _ => Ascii.eqb c x | [] => false end.
Proof. destruct s; cbn; auto. now rewrite andb_true_r. Qed.

Lemma has_suffix1_app c s x : has_suffix [c] (s ++ [x]) = Ascii.eqb c x.
Proof. unfold has_suffix. rewrite rev_app_distr. cbn. now rewrite andb_true_r. Qed.

Lemma has_suffix1_nil c : has_suffix [c] [] = false.
Proof. reflexivity. Qed.

Lemma list_last_case {A} (l : list A) : l = [] \/ exists l' x, l = l' ++ [x].
Proof. destruct l using rev_ind; eauto. Qed.

Lemma contains_byte_app c a b : contains_byte c (a ++ b) = contains_byte c a || contains_byte c b.
Proof. unfold contains_byte. apply existsb_app. Qed.

Lemma contains_byte_In c s : contains_byte c s = true <-> In c s.
Proof.
  unfold contains_byte. rewrite existsb_exists. split.
  - intros [x [H E]]. apply Ascii.eqb_eq in E. now subst.
  - intros H. exists c. now rewrite Ascii.eqb_refl.
Qed.

Lemma count_byte_app c a b : count_byte c (a ++ b) = (count_byte c a + count_byte c b)%nat.
Proof. induction a; cbn; lia. Qed.

Lemma count_byte_notin c s : ~ In c s -> count_byte c s = 0%nat.
Proof.
  induction s as [|x s IH]; cbn; intros H; auto.
  destruct (Ascii.eqb_spec c x); [subst; tauto | rewrite IH; tauto].
Qed.

Lemma slice_inner_wrap a s b : slice_inner (a :: s ++ [b]) = Some s.
Proof.
  unfold slice_inner. destruct (s ++ [b]) as [|x t] eqn:E.
  - destruct s; discriminate.
  - cbn [tl]. rewrite <- E, removelast_last. reflexivity.
Qed.

(** ** Replacement of a single byte *)

Fixpoint map_byte (f : ascii -> str) (s : str) : str :=
  match s with [] => [] | c :: t => f c ++ map_byte f t end.

Lemma map_byte_app f a b : map_byte f (a ++ b) = map_byte f a ++ map_byte f b.
Proof. induction a; cbn; auto. now rewrite IHa, app_assoc. Qed.

Lemma replace_all_1 c new s :
  replace_all [c] new s = map_byte (fun x => if Ascii.eqb c x then new else [x]) s.
Proof.
  unfold replace_all. induction s as [|x s IH]; auto.
  cbn [replace_from map_byte]. rewrite has_prefix1.
  destruct (Ascii.eqb c x); cbn; now rewrite IH.
Qed.

Lemma remove_byte_filter c s :
  replace_all [c] [] s = filter (fun x => negb (Ascii.eqb c x)) s.
Proof.
  rewrite replace_all_1. induction s as [|x s IH]; cbn; auto.
  destruct (Ascii.eqb c x); cbn; now rewrite IH.
Qed.

Lemma replace_all_app1 c new a b :
  replace_all [c] new (a ++ b) = replace_all [c] new a ++ replace_all [c] new b.
Proof. now rewrite !replace_all_1, map_byte_app. Qed.

(** ** Replacement of the two bytes backslash, double quote *)

Definition unesc (s : str) : str := replace_all [c_bs; c_dq] [c_dq] s.

Lemma unesc_cons c s :
  unesc (c :: s) =
  match s with
  | d :: t => if Ascii.eqb c c_bs && Ascii.eqb d c_dq then c_dq :: unesc t else c :: unesc s
  | [] => [c]
  end.
Proof.
  unfold unesc, replace_all. cbn [replace_from]. destruct s as [|d t].
  - cbn. now rewrite andb_false_r.
  - cbn [has_prefix]. rewrite andb_true_r.
    rewrite (Ascii.eqb_sym c_bs c), (Ascii.eqb_sym c_dq d).
    destruct (Ascii.eqb c c_bs && Ascii.eqb d c_dq) eqn:E.
    + cbn. reflexivity.
    + reflexivity.
Qed.

Lemma unesc_nil : unesc [] = [].
Proof. reflexivity. Qed.

Lemma unesc_nobs s : ~ In c_bs s -> unesc s = s.
Proof.
  induction s as [|c s IH]; intros H; auto.
  rewrite unesc_cons. destruct s as [|d t]; auto.
  destruct (Ascii.eqb_spec c c_bs); [subst; cbn in H; tauto|].
  cbn [andb]. rewrite IH; auto. cbn in *; tauto.
Qed.

(** A suffix that does not start with a double quote is unescaped on its own. *)
Lemma unesc_app a b :
  (forall x t, b = x :: t -> x <> c_dq \/ last a c_dq <> c_bs) ->
  unesc (a ++ b) = unesc a ++ unesc b.
Proof.
  revert b. induction a as [a IH] using (well_founded_induction (well_founded_ltof _ (@length ascii))).
  intros b H. destruct a as [|c a]; auto. cbn [app].
  rewrite !unesc_cons. destruct a as [|d a].
  - cbn [app]. destruct b as [|d t]; auto.
    destruct (Ascii.eqb_spec c c_bs); cbn [andb]; auto.
    destruct (Ascii.eqb_spec d c_dq); auto. subst.
    destruct (H c_dq t eq_refl) as [H1|H1]; cbn in H1; congruence.
  - cbn [app]. destruct (Ascii.eqb c c_bs && Ascii.eqb d c_dq) eqn:E.
    + cbn [app]. f_equal. apply IH; [red; cbn; lia|].
      intros x t Hb. destruct (H x t Hb) as [H1|H1]; auto.
      destruct a; cbn in *; auto. right.
      apply andb_true_iff in E as [_ E]. apply Ascii.eqb_eq in E. subst. discriminate.
    + cbn [app]. f_equal. change (d :: a ++ b) with ((d :: a) ++ b).
      apply IH; [red; cbn; lia|].
      intros x t Hb. destruct (H x t Hb) as [H1|H1]; auto.
Qed.

Definition esc (s : str) : str := replace_all [c_dq] [c_bs; c_dq] s.

Lemma esc_cons c s : esc (c :: s) = (if Ascii.eqb c_dq c then [c_bs; c_dq] else [c]) ++ esc s.
Proof. unfold esc. now rewrite !replace_all_1. Qed.

Lemma esc_app a b : esc (a ++ b) = esc a ++ esc b.
Proof. apply replace_all_app1. Qed.

Lemma esc_noq_head s : match esc s with x :: _ => x <> c_dq | [] => True end.
Proof.
  destruct s as [|c s]; [exact I|]. rewrite esc_cons.
  destruct (Ascii.eqb_spec c_dq c); cbn; [discriminate|congruence].
Qed.

(** Unescaping undoes escaping, for every string. *)
Lemma unesc_esc s : unesc (esc s) = s.
Proof.
  induction s as [|c s IH]; auto.
  rewrite esc_cons. destruct (Ascii.eqb_spec c_dq c).
  - subst. cbn [app]. rewrite unesc_cons. rewrite !Ascii.eqb_refl. cbn [andb]. now rewrite IH.
  - cbn [app]. rewrite unesc_cons. pose proof (esc_noq_head s) as Hh.
    destruct (esc s) as [|d t] eqn:E.
    + destruct s as [|x s']; auto. rewrite esc_cons in E. now destruct (Ascii.eqb c_dq x).
    + destruct (Ascii.eqb_spec d c_dq); [congruence|].
      rewrite andb_false_r. now rewrite IH.
Qed.

Lemma esc_nodq s : ~ In c_dq s -> esc s = s.
Proof.
  induction s as [|c s IH]; intros H; auto.
  rewrite esc_cons. destruct (Ascii.eqb_spec c_dq c).
  - subst; cbn in H; tauto.
  - cbn. rewrite IH; auto. cbn in H; tauto.
Qed.

Lemma esc_last s : s <> [] -> last (esc s) c_dq = last s c_dq.
Proof.
  intros H. destruct (list_last_case s) as [->|(l & x & ->)]; [congruence|].
  rewrite esc_app, last_last, esc_cons. change (esc []) with (@nil ascii). rewrite app_nil_r.
  destruct (Ascii.eqb_spec c_dq x).
  - subst. change [c_bs; c_dq] with ([c_bs] ++ [c_dq]). now rewrite app_assoc, last_last.
  - now rewrite last_last.
Qed.

(** ** TrimSpace *)

Definition nonspace_ascii (c : ascii) : Prop :=
  is_space1 c = false /\ (N_of_ascii c < 128)%N.

Lemma is_space2_lo a b : (N_of_ascii a < 128)%N -> is_space2 a b = false.
Proof.
  intros H. unfold is_space2. destruct (Ascii.eqb_spec a (ascii_of_N 194)); auto.
  subst. vm_compute in H. discriminate.
Qed.

Lemma is_space3_lo a b c : (N_of_ascii a < 128)%N -> is_space3 a b c = false.
Proof.
  intros H. unfold is_space3. remember (N_of_ascii a) as n.
  destruct n as [|p]; auto.
  do 8 (destruct p as [p|p|]; auto; try lia).
Qed.

Lemma is_space2_lo2 a b : (N_of_ascii b < 128)%N -> is_space2 a b = false.
Proof.
  intros H. unfold is_space2. rewrite andb_comm.
  destruct (Ascii.eqb_spec b (ascii_of_N 133)); [subst; vm_compute in H; discriminate|].
  destruct (Ascii.eqb_spec b (ascii_of_N 160)); [subst; vm_compute in H; discriminate|].
  reflexivity.
Qed.

Lemma is_space3_lo3 a b c : (N_of_ascii c < 128)%N -> is_space3 a b c = false.
Proof.
  intros H. unfold is_space3.
  assert (E : forall k, (128 <= k)%N -> N.eqb (N_of_ascii c) k = false)
    by (intros; apply N.eqb_neq; lia).
  assert (L : N.leb 128 (N_of_ascii c) = false) by (apply N.leb_gt; lia).
  rewrite L, !E by lia. cbn [andb orb]. rewrite !andb_false_r. cbn [orb].
  destruct (N_of_ascii a) as [|p]; auto.
  do 8 (destruct p as [p|p|]; auto).
Qed.

Lemma trim_left_id c s : nonspace_ascii c -> trim_left (c :: s) = c :: s.
Proof.
  intros [H1 H2]. cbn. rewrite H1. destruct s as [|d s]; auto.
  rewrite is_space2_lo by auto. destruct s as [|e s]; auto.
  now rewrite is_space3_lo.
Qed.

Lemma trim_right_rev_id c s : nonspace_ascii c -> trim_right_rev (c :: s) = c :: s.
Proof.
  intros [H1 H2]. cbn. rewrite H1. destruct s as [|d s]; auto.
  rewrite is_space2_lo2 by auto. destruct s as [|e s]; auto.
  now rewrite is_space3_lo3.
Qed.

(** A text whose first and last bytes are ASCII non-blanks is not changed. *)
Lemma trim_space_id s :
  (forall c t, s = c :: t -> nonspace_ascii c) ->
  (forall c t, s = t ++ [c] -> nonspace_ascii c) ->
  trim_space s = s.
Proof.
  intros H1 H2. unfold trim_space. destruct s as [|c s]; auto.
  rewrite trim_left_id by (eapply H1; reflexivity).
  destruct (list_last_case (c :: s)) as [E|(l & x & E)]; [discriminate|].
  rewrite E, rev_app_distr. cbn [rev app].
  rewrite trim_right_rev_id by (eapply H2; eauto).
  cbn. now rewrite rev_involutive.
Qed.

Lemma trim_left_blank c s : is_space1 c = true -> trim_left (c :: s) = trim_left s.
Proof. intros H. cbn. now rewrite H. Qed.

Lemma trim_left_blanks b s : forallb is_space1 b = true -> trim_left (b ++ s) = trim_left s.
Proof.
  induction b as [|c b IH]; cbn [app forallb]; intros H; auto.
  apply andb_true_iff in H as [H1 H2]. rewrite trim_left_blank by auto. auto.
Qed.

Lemma trim_right_rev_blanks b s :
  forallb is_space1 b = true -> trim_right_rev (b ++ s) = trim_right_rev s.
Proof.
  induction b as [|c b IH]; cbn [app forallb]; intros H; auto.
  apply andb_true_iff in H as [H1 H2]. cbn. rewrite H1. auto.
Qed.

Lemma forallb_rev {A} (p : A -> bool) l : forallb p (rev l) = forallb p l.
Proof.
  induction l as [|x l IH]; cbn; auto.
  rewrite forallb_app, IH. cbn. rewrite andb_true_r. apply andb_comm.
Qed.

(** Blanks after a text are trimmed. *)
Lemma trim_space_right s b :
  (forall c t, s = c :: t -> nonspace_ascii c) ->
  (forall c t, s = t ++ [c] -> nonspace_ascii c) ->
  forallb is_space1 b = true -> trim_space (s ++ b) = s.
Proof.
  intros H1 H2 Hb. unfold trim_space. destruct s as [|c s].
  - cbn [app]. rewrite <- (app_nil_r b), trim_left_blanks by auto. reflexivity.
  - cbn [app]. rewrite trim_left_id by (eapply H1; reflexivity).
    change (c :: s ++ b) with ((c :: s) ++ b). rewrite rev_app_distr.
    rewrite trim_right_rev_blanks by (now rewrite forallb_rev).
    destruct (list_last_case (c :: s)) as [E|(l & x & E)]; [discriminate|].
    rewrite E, rev_app_distr. cbn [rev app].
    rewrite trim_right_rev_id by (eapply H2; eauto).
    cbn. now rewrite rev_involutive.
Qed.

(** ** string(byte) *)

Lemma utf8_ascii c : (N_of_ascii c < 128)%N -> utf8_of_byte c = [c].
Proof. intros H. unfold utf8_of_byte. apply N.ltb_lt in H. now rewrite H. Qed.

Lemma utf8_hi_bytes c :
  (128 <= N_of_ascii c)%N ->
  exists a b, utf8_of_byte c = [a; b] /\ (192 <= N_of_ascii a < 196)%N
              /\ (128 <= N_of_ascii b < 192)%N.
Proof.
  intros H. unfold utf8_of_byte.
  destruct (N.ltb_spec (N_of_ascii c) 128); [lia|].
  pose proof (N_ascii_bounded c) as Hb.
  do 2 eexists. split; [reflexivity|].
  assert (D : (N_of_ascii c / 64 < 4)%N) by (apply N.div_lt_upper_bound; lia).
  assert (Mo : (N_of_ascii c mod 64 < 64)%N) by (apply N.mod_lt; lia).
  revert D Mo. generalize (N_of_ascii c / 64)%N (N_of_ascii c mod 64)%N. intros p r D Mo.
  rewrite !N_ascii_embedding by lia. lia.
Qed.

Definition utf8_str (s : str) : str := map_byte utf8_of_byte s.

Lemma utf8_str_app a b : utf8_str (a ++ b) = utf8_str a ++ utf8_str b.
Proof. apply map_byte_app. Qed.

Lemma utf8_str_ascii s : Forall (fun c => (N_of_ascii c < 128)%N) s -> utf8_str s = s.
Proof.
  induction 1; cbn; auto. rewrite utf8_ascii by auto. cbn. unfold utf8_str in IHForall.
  now rewrite IHForall.
Qed.
