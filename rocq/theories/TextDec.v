(** * Deciding that a concrete text is well formed

    Used beside the theorems to show that their hypotheses are met. *)
From Coq Require Import Ascii String List NArith ZArith Bool Lia.
From Verif Require Import GoStr GoNum GoFloat Heap SpecDict SpecNum SpecFloat SpecDoc SpecText SpecToken.
Import ListNotations.

Definition blankb (c : ascii) : bool := existsb (Ascii.eqb c) [c_sp; c_tab; c_nl; c_cr].
Definition blanksb (s : str) : bool := forallb blankb s.
Definition structb (c : ascii) : bool := existsb (Ascii.eqb c) [c_dq; c_lb; c_rb; c_ls; c_rs].

Lemma existsb_eqb c l : existsb (Ascii.eqb c) l = true <-> In c l.
Proof.
  rewrite existsb_exists. split.
  - intros (x & I & E). apply Ascii.eqb_eq in E. now subst.
  - intros I. exists c. split; auto. apply Ascii.eqb_refl.
Qed.
Lemma blankb_ok c : blankb c = true <-> blank c.
Proof. unfold blankb, blank. rewrite existsb_eqb. cbn. intuition. Qed.
Lemma structb_ok c : structb c = true <-> structural c.
Proof. unfold structb, structural. rewrite existsb_eqb. cbn. intuition. Qed.
Lemma forallb_ok {A} (p : A -> bool) (P : A -> Prop) l : (forall x, p x = true -> P x) -> forallb p l = true -> Forall P l.
Proof. intros H. rewrite forallb_forall, Forall_forall. auto. Qed.
Lemma blanksb_ok s : blanksb s = true -> blanks s.
Proof. apply forallb_ok. intros x. apply blankb_ok. Qed.
Lemma structb_not c : structb c = false -> ~ structural c.
Proof. intros E H. apply structb_ok in H. congruence. Qed.
Lemma eqb_not a b : Ascii.eqb a b = false -> a <> b.
Proof. intros E ->. now rewrite Ascii.eqb_refl in E. Qed.

(** Bodies of strings; [prev] says whether the byte before is a backslash. *)
Fixpoint bodyb (prev : bool) (b : str) : bool :=
  match b with
  | [] => negb prev
  | c :: t => (if Ascii.eqb c c_dq then prev else true) && bodyb (Ascii.eqb c c_bs) t
  end.

Lemma bodyb_ok_gen b : forall prev, bodyb prev b = true ->
  (forall u v, b = u ++ c_dq :: v -> (u = [] /\ prev = true) \/ exists u', u = u' ++ [c_bs])
  /\ (forall u, b = u ++ [c_bs] -> False) /\ (b = [] -> prev = false).
Proof.
  induction b as [|c t IH]; intros prev; cbn [bodyb].
  - rewrite negb_true_iff. intros ->. split; [|split; auto]; intros [|x u]; discriminate.
  - rewrite andb_true_iff. intros [H1 H2]. destruct (IH _ H2) as (A & B & C). split; [|split; [|discriminate]].
    + intros [|x u] v E; inversion E; subst.
      * rewrite Ascii.eqb_refl in H1. left. auto.
      * right. destruct (A u v eq_refl) as [[-> Q]|[u' ->]].
        -- apply Ascii.eqb_eq in Q. subst. now exists [].
        -- exists (x :: u'). reflexivity.
    + intros [|x u] E; inversion E; subst.
      * specialize (C eq_refl). discriminate.
      * now apply (B u).
Qed.
Lemma bodyb_ok b : bodyb false b = true -> body_ok b.
Proof.
  intros H. destruct (bodyb_ok_gen b false H) as (A & B & C). split.
  - intros u v E. destruct (A u v E) as [[_ Q]|]; [discriminate|auto].
  - intros u E. now apply (B u).
Qed.

Definition gapb (strict : bool) (s : str) : bool :=
  if strict then blanksb s else forallb (fun c => negb (structb c) && negb (Ascii.eqb c c_bs)) s.
Definition gap_colonb (strict : bool) (s : str) : bool :=
  if strict then blanksb s
  else forallb (fun c => negb (structb c) && negb (Ascii.eqb c c_bs) && negb (Ascii.eqb c c_col)) s.
Lemma gapb_ok st s : gapb st s = true -> gap st s.
Proof.
  destruct st; cbn; [apply blanksb_ok|]. apply forallb_ok. intros c H.
  rewrite andb_true_iff, !negb_true_iff in H. destruct H. auto using structb_not, eqb_not.
Qed.
Lemma gap_colonb_ok st s : gap_colonb st s = true -> gap_colon st s.
Proof.
  destruct st; cbn; [apply blanksb_ok|]. apply forallb_ok. intros c H.
  rewrite !andb_true_iff, !negb_true_iff in H. destruct H as [[? ?] ?]. auto using structb_not, eqb_not.
Qed.

Definition printableb (c : ascii) : bool :=
  N.leb 33 (N_of_ascii c) && N.leb (N_of_ascii c) 126 && negb (Ascii.eqb c c_dq).
Lemma printableb_ok c : printableb c = true -> printable c.
Proof.
  unfold printableb, printable. rewrite !andb_true_iff, negb_true_iff, !N.leb_le. intros [[? ?] ?].
  split; auto using eqb_not.
Qed.

Definition tokenb (strict : bool) (t : str) : bool :=
  forallb (fun c => negb (structb c) && negb (Ascii.eqb c c_com)) t
  && if strict then match t with [] => false | _ => true end
                    && forallb (fun c => printableb c && negb (Ascii.eqb c c_bs)) t
     else match t with c :: _ => negb (blankb c) && negb (Ascii.eqb c c_bs) | [] => true end.
Lemma tokenb_ok st t : tokenb st t = true -> token_ok st t.
Proof.
  unfold tokenb, token_ok. rewrite andb_true_iff. intros [A B]. split.
  - revert A. apply forallb_ok. intros c H. rewrite andb_true_iff, !negb_true_iff in H. destruct H.
    auto using structb_not, eqb_not.
  - destruct st.
    + rewrite andb_true_iff in B. destruct B as [B C]. split; [destruct t; discriminate|].
      revert C. apply forallb_ok. intros c H. rewrite andb_true_iff, negb_true_iff in H. destruct H.
      auto using printableb_ok, eqb_not.
    + destruct t; auto. rewrite andb_true_iff, !negb_true_iff in B. destruct B. split; auto using eqb_not.
      intros Q. apply blankb_ok in Q. congruence.
Qed.

Definition commab (strict token comma last te : bool) : bool :=
  if strict then Bool.eqb comma (negb last) && (if last then te else true)
  else if token then comma || (last && te) else true.
Lemma commab_ok st tk c l te (P : Prop) : (te = true -> P) -> commab st tk c l te = true -> comma_ok st tk c l P.
Proof.
  intros HP. destruct st; cbn.
  - rewrite andb_true_iff. intros [A B]. apply Bool.eqb_prop in A. split; auto. intros ->. auto.
  - destruct tk; [|discriminate]. rewrite orb_true_iff, andb_true_iff. intros [->|[-> ->]] _; auto.
Qed.
Definition enilb (l : jelems) : bool := match l with ENil [] => true | _ => false end.
Definition mnilb (l : jmembers) : bool := match l with MNil [] => true | _ => false end.

Fixpoint textb (strict : bool) (v : jtext) : bool :=
  match v with
  | JTok t => tokenb strict t
  | JStr b => bodyb false b
  | JArr l => elemsb strict l
  | JMap l => membersb strict l
  end
with elemsb (strict : bool) (l : jelems) : bool :=
  match l with
  | ENil b => blanksb b
  | ECons pre v post comma rest =>
      blanksb pre && textb strict v && blanksb post
      && commab strict (is_token v) comma (last_elem rest) (enilb rest)
      && elemsb strict rest
  end
with membersb (strict : bool) (l : jmembers) : bool :=
  match l with
  | MNil b => gapb strict b
  | MCons pre k mid pre2 v post comma rest =>
      gapb strict pre && bodyb false k && gap_colonb strict mid && blanksb pre2 && textb strict v
      && (if is_token v then blanksb post else gapb strict post)
      && commab strict (is_token v) comma (last_member rest) (mnilb rest)
      && membersb strict rest
  end.

Scheme jtext_dmut := Induction for jtext Sort Prop
  with jelems_dmut := Induction for jelems Sort Prop
  with jmembers_dmut := Induction for jmembers Sort Prop.
Combined Scheme jtext_dcombined from jtext_dmut, jelems_dmut, jmembers_dmut.

Lemma textb_ok st :
  (forall v, textb st v = true -> text_ok st v) /\ (forall l, elemsb st l = true -> elems_ok st l)
  /\ (forall l, membersb st l = true -> members_ok st l).
Proof.
  apply jtext_dcombined; cbn [textb elemsb membersb text_ok elems_ok members_ok]; auto using tokenb_ok, bodyb_ok, blanksb_ok, gapb_ok.
  - intros pre v IV post c r IR. rewrite !andb_true_iff. intros [[[[A B] C] D] E].
    repeat split; auto using blanksb_ok. revert D. apply commab_ok. destruct r as [[|]|]; cbn; auto; discriminate.
  - intros pre k mid pre2 v IV post c r IR. rewrite !andb_true_iff. intros [[[[[[[A B] C] D] E] F] G] H].
    repeat split; auto using blanksb_ok, gapb_ok, gap_colonb_ok; try now apply bodyb_ok.
    + destruct (is_token v); auto using blanksb_ok, gapb_ok.
    + revert G. apply commab_ok. destruct r as [[|]|]; cbn; auto; discriminate.
Qed.
Lemma membersb_ok st l : membersb st l = true -> members_ok st l.
Proof. apply textb_ok. Qed.

Definition plainb (c : ascii) : bool := blankb c || printableb c.
Lemma plainb_ok c : plainb c = true -> plain c.
Proof. unfold plainb. rewrite orb_true_iff. intros [H|H]; [left; now apply blankb_ok|right; now apply printableb_ok]. Qed.
Definition plain_tokensb (l : jmembers) : bool := forallb (forallb plainb) (tokens_members l).
Lemma plain_tokensb_ok l : plain_tokensb l = true -> plain_tokens l.
Proof. apply forallb_ok. intros t. apply forallb_ok, plainb_ok. Qed.

Definition digitb (c : ascii) : bool := Z.leb 0 (digit c) && Z.leb (digit c) 9.
Definition numeralb (u : str) (z : Z) : bool :=
  match u with [] => false | _ => true end && forallb digitb u && Z.eqb (decimal u) z.
Lemma numeralb_ok u z : numeralb u z = true -> numeral u z.
Proof.
  unfold numeralb, numeral. rewrite !andb_true_iff. intros [[A B] C]. split; [destruct u; discriminate|].
  split; [|now apply Z.eqb_eq]. revert B. apply forallb_ok. intros c H. unfold digitb, is_digit in *.
  apply andb_true_iff in H as [H1 H2]. apply Z.leb_le in H1, H2. lia.
Qed.
