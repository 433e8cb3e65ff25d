(** * Readers of RFC 8259 texts (proofs for C71) *)
From Coq Require Import Ascii String List NArith ZArith Bool Lia.
From Verif Require Import GoStr GoNum GoFloat Heap Common ValueModel ArrayModel MapModel JsonModel ParserModel Reach
  StrLemmas SpecNum NumLemmas SpecFloat SpecUtf8 SpecWorld World SpecDoc SpecText SpecToken SpecRender SpecJson SpecRfc SpecReader
  RenderFacts ShowFacts TokenFacts JsonFacts RfcFacts SerialFacts.
Import ListNotations.

(** ** A wider grammar that is unambiguous *)
Definition tchar (c : ascii) : Prop := In c (lit "0123456789.+-eEtrufalsn").
Inductive token : str -> jval -> Prop :=
| tk_false : token (lit "false") (VBool false)
| tk_null : token (lit "null") VNull
| tk_true : token (lit "true") (VBool true)
| tk_number s : s <> [] -> Forall number_char s -> token s (VNumber s).

Inductive closed : str -> Prop :=
| cl_nil : closed []
| cl_char c b : c <> c_dq -> c <> c_bs -> closed b -> closed (c :: b)
| cl_esc c b : closed b -> closed (c_bs :: c :: b).

Inductive lax_value : str -> jval -> Prop :=
| lv_token s v : token s v -> lax_value s v
| lv_string b : closed b -> lax_value (c_dq :: b ++ [c_dq]) (VString b)
| lv_array0 b : ws b -> lax_value (c_ls :: b ++ [c_rs]) (VArray [])
| lv_array s l : lax_elements s l -> lax_value (c_ls :: s ++ [c_rs]) (VArray l)
| lv_object0 b : ws b -> lax_value (c_lb :: b ++ [c_rb]) (VObject [])
| lv_object s l : lax_members s l -> lax_value (c_lb :: s ++ [c_rb]) (VObject l)
with lax_elements : str -> list jval -> Prop :=
| le_last a s v b : ws a -> lax_value s v -> ws b -> lax_elements (a ++ s ++ b) [v]
| le_more a s v b t l :
    ws a -> lax_value s v -> ws b -> lax_elements t l -> lax_elements (a ++ s ++ b ++ c_com :: t) (v :: l)
with lax_members : str -> list (str * jval) -> Prop :=
| lm_last a k b c s v d :
    ws a -> closed k -> ws b -> ws c -> lax_value s v -> ws d ->
    lax_members (a ++ (c_dq :: k ++ [c_dq]) ++ b ++ c_col :: c ++ s ++ d) [(k, v)]
| lm_more a k b c s v d t l :
    ws a -> closed k -> ws b -> ws c -> lax_value s v -> ws d -> lax_members t l ->
    lax_members (a ++ (c_dq :: k ++ [c_dq]) ++ b ++ c_col :: c ++ s ++ d ++ c_com :: t) ((k, v) :: l).
Scheme lvi := Induction for lax_value Sort Prop with lei' := Induction for lax_elements Sort Prop
  with lmi' := Induction for lax_members Sort Prop.
Combined Scheme lax_ind from lvi, lei', lmi'.

Definition wsc (c : ascii) : Prop := In (N_of_ascii c) [32; 9; 10; 13]%N.
Definition delim (r : str) : Prop :=
  match r with [] => True | c :: _ => wsc c \/ c = c_com \/ c = c_rs \/ c = c_rb end.
Definition dark (x : str) : Prop := match x with [] => False | c :: _ => ~ wsc c end.

Lemma ws_split a : forall a' x x', ws a -> ws a' -> dark x -> dark x' -> a ++ x = a' ++ x' -> a = a' /\ x = x'.
Proof.
  induction a as [|c a IH]; intros [|c' a'] x x' A A' D D' E; cbn [app] in E.
  - now split.
  - subst x. exfalso. inversion A'; subst. now apply D.
  - subst x'. exfalso. inversion A; subst. now apply D'.
  - injection E as <- E. inversion A; inversion A'; subst. destruct (IH a' x x') as [-> ->]; auto.
Qed.

Lemma tchar_other c : tchar c ->
  existsb (Ascii.eqb c) [c_com; c_rs; c_rb; c_ls; c_lb; c_dq] = false /\ existsb (N.eqb (N_of_ascii c)) [32; 9; 10; 13]%N = false.
Proof. intros T. unfold tchar, lit in T. cbn in T. repeat (destruct T as [<-|T]; [split; reflexivity|]). destruct T. Qed.
Lemma tchar_neq c x : tchar c -> In x [c_com; c_rs; c_rb; c_ls; c_lb; c_dq] -> c <> x.
Proof.
  intros T I ->. destruct (tchar_other _ T) as [E _]. rewrite <- not_true_iff_false in E. apply E. apply existsb_exists.
  exists x. split; auto. apply Ascii.eqb_refl.
Qed.
Lemma tchar_no_delim c : tchar c -> ~ (wsc c \/ c = c_com \/ c = c_rs \/ c = c_rb).
Proof.
  intros T [W|W].
  - destruct (tchar_other _ T) as [_ E]. rewrite <- not_true_iff_false in E. apply E. apply existsb_exists.
    exists (N_of_ascii c). split; [exact W|apply N.eqb_refl].
  - assert (In c [c_com; c_rs; c_rb; c_ls; c_lb; c_dq]) as I by (destruct W as [-> |[-> | ->]]; cbn; tauto).
    exact (tchar_neq c c T I eq_refl).
Qed.
Lemma token_split s : forall s' r r', Forall tchar s -> Forall tchar s' -> delim r -> delim r' -> s ++ r = s' ++ r' -> s = s'.
Proof.
  induction s as [|c s IH]; intros [|c' s'] r r' T T' D D' E; cbn [app] in E; auto.
  - subst r. exfalso. inversion T' as [|? ? T1 _]; subst. exact (tchar_no_delim _ T1 D).
  - subst r'. exfalso. inversion T as [|? ? T1 _]; subst. exact (tchar_no_delim _ T1 D').
  - injection E as <- E. f_equal. inversion T; inversion T'; subst. apply (IH s' r r'); auto.
Qed.
Lemma number_tchar c : number_char c -> tchar c.
Proof.
  unfold number_char, tchar. change (lit "0123456789.+-eEtrufalsn") with (lit "0123456789.+-eE" ++ lit "trufalsn").
  intros I. apply in_or_app. now left.
Qed.
Lemma tchars_ok s : forallb (fun c => existsb (Ascii.eqb c) (lit "0123456789.+-eEtrufalsn")) s = true -> Forall tchar s.
Proof.
  rewrite forallb_forall. intros H. apply Forall_forall. intros c I. apply H, existsb_exists in I as (x & I & E).
  apply Ascii.eqb_eq in E. now subst.
Qed.
Lemma token_chars s v : token s v -> s <> [] /\ Forall tchar s.
Proof.
  intros [| | |t N F]; try (split; [discriminate|]; apply tchars_ok; reflexivity).
  split; auto. eapply Forall_impl; [|exact F]. apply number_tchar.
Qed.
Lemma no_number a s : In a (lit "tfn") -> Forall number_char (a :: s) -> False.
Proof.
  intros I F. inversion F as [|? ? C _]; subst. assert (E : existsb (Ascii.eqb a) (lit "tfn") = false).
  { unfold number_char, lit in C. cbn in C. repeat (destruct C as [<-|C]; [reflexivity|]). destruct C. }
  rewrite <- not_true_iff_false in E. apply E. apply existsb_exists. exists a. split; auto. apply Ascii.eqb_refl.
Qed.
Lemma token_fun s v v' : token s v -> token s v' -> v = v'.
Proof.
  intros H H'. inversion H; inversion H'; subst; try discriminate; auto; exfalso;
    match goal with F : Forall number_char (lit _) |- _ => apply no_number in F; [exact F|cbn; tauto] end.
Qed.

Lemma closed_split b : closed b -> forall b' r r', closed b' -> b ++ c_dq :: r = b' ++ c_dq :: r' -> b = b' /\ r = r'.
Proof.
  induction 1 as [|c b N1 N2 C IH|c b C IH]; intros b' r r' C' E; destruct C' as [|c' b' M1 M2 C'|c' b' C']; cbn [app] in E.
  - injection E as <-. auto.
  - injection E as E1 E. now destruct M1.
  - injection E as E1 E. discriminate.
  - injection E as E1 E. now destruct N1.
  - injection E as <- E. destruct (IH _ _ _ C' E) as [-> ->]. auto.
  - injection E as E1 E. now destruct N2.
  - injection E as E1 E. discriminate.
  - injection E as E1 E. now destruct M2.
  - injection E as <- E. destruct (IH _ _ _ C' E) as [-> ->]. auto.
Qed.

(** How values begin. *)
Lemma lax_head s v : lax_value s v -> exists c t, s = c :: t /\ ~ wsc c /\ c <> c_rs /\ c <> c_rb.
Proof.
  intros [t w T|b _|b _|t l _|b _|t l _]; try (eexists _, _; split; [reflexivity|]; split; [cbn; intuition discriminate|split; discriminate]).
  destruct (token_chars _ _ T) as [N F]. destruct t as [|c t]; [now destruct N|]. inversion F as [|? ? T1 _]; subst.
  exists c, t. split; auto. assert (Q := tchar_no_delim c T1). tauto.
Qed.
Lemma head_dark s v r : lax_value s v -> dark (s ++ r).
Proof. intros H. destruct (lax_head _ _ H) as (c & t & -> & W & _). exact W. Qed.

Lemma dark_rs r : dark (c_rs :: r).
Proof. cbn. intuition discriminate. Qed.
Lemma dark_rb r : dark (c_rb :: r).
Proof. cbn. intuition discriminate. Qed.
Lemma dark_com r : dark (c_com :: r).
Proof. cbn. intuition discriminate. Qed.
Lemma dark_col r : dark (c_col :: r).
Proof. cbn. intuition discriminate. Qed.
Lemma dark_dq r : dark (c_dq :: r).
Proof. cbn. intuition discriminate. Qed.
#[local] Hint Resolve dark_rs dark_rb dark_com dark_col dark_dq : core.

Lemma ws_delim a r : ws a -> delim r -> delim (a ++ r).
Proof. intros [|c t W _] D; cbn; auto. Qed.
Lemma delim_rs r : delim (c_rs :: r). Proof. cbn. auto. Qed.
Lemma delim_rb r : delim (c_rb :: r). Proof. cbn. auto. Qed.
Lemma delim_com r : delim (c_com :: r). Proof. cbn. auto. Qed.
#[local] Hint Resolve ws_delim delim_rs delim_rb delim_com : core.

(** An array or object with elements does not look like one without. *)
Lemma elements_head s l a r r' : lax_elements s l -> ws a -> a ++ c_rs :: r = s ++ r' -> False.
Proof.
  intros H A E. destruct H as [a' t v b A' V B|a' t v b u l A' V B Ht]; rewrite <- ?app_assoc in E;
    (apply ws_split in E as [_ E]; auto; [|eapply head_dark; eauto]);
    destruct (lax_head _ _ V) as (c & t' & -> & _ & N & _); injection E as E _; now apply N.
Qed.
Lemma members_head s l a r r' : lax_members s l -> ws a -> a ++ c_rb :: r = s ++ r' -> False.
Proof.
  intros H A E. destruct H; rewrite <- ?app_assoc in E; (apply ws_split in E as [_ E]; auto; [discriminate|cbn; intuition discriminate]).
Qed.

Lemma lax_unique :
  (forall s v, lax_value s v -> forall s' v' r r', lax_value s' v' -> s ++ r = s' ++ r' -> delim r -> delim r' -> s = s' /\ v = v')
  /\ (forall s l, lax_elements s l -> forall s' l' r r', lax_elements s' l' -> s ++ c_rs :: r = s' ++ c_rs :: r' -> s = s' /\ l = l')
  /\ (forall s l, lax_members s l -> forall s' l' r r', lax_members s' l' -> s ++ c_rb :: r = s' ++ c_rb :: r' -> s = s' /\ l = l').
Proof.
  apply lax_ind.
  - intros s v T s' v' r r' H E D D'. destruct H as [s' v' T'|b _|b _|t l _|b _|t l _];
      try (destruct (token_chars _ _ T) as [N F]; destruct F as [|? ? F _]; [now destruct N|];
        exfalso; cbn [app] in E; injection E as E _; eapply (tchar_neq _ _ F); [|exact E]; cbn; tauto).
    destruct (token_chars _ _ T) as [_ F]. destruct (token_chars _ _ T') as [_ F'].
    assert (s = s') as -> by exact (token_split s s' r r' F F' D D' E). split; auto. exact (token_fun _ _ _ T T').
  - intros b C s' v' r r' H E D D'. destruct H as [s' v' T'|b' C'|b' _|t l _|b' _|t l _]; cbn [app] in E; try discriminate.
    + destruct (token_chars _ _ T') as [N F]; destruct F as [|? ? F _]; [now destruct N|];
        exfalso; cbn [app] in E; injection E as E _; eapply (tchar_neq _ _ F); [|symmetry; exact E]; cbn; tauto.
    + injection E as E. rewrite <- ?app_assoc in E. destruct (closed_split _ C _ _ _ C' E) as [-> _]. auto.
  - intros b W s' v' r r' H E D D'. destruct H as [s' v' T'|b' C'|b' W'|t l He|b' _|t l _]; cbn [app] in E; try discriminate.
    + destruct (token_chars _ _ T') as [N F]; destruct F as [|? ? F _]; [now destruct N|];
        exfalso; cbn [app] in E; injection E as E _; eapply (tchar_neq _ _ F); [|symmetry; exact E]; cbn; tauto.
    + injection E as E. rewrite <- ?app_assoc in E. apply ws_split in E as [-> _]; cbn [app]; auto.
    + injection E as E. rewrite <- ?app_assoc in E. exfalso. eapply elements_head; eauto.
  - intros s l He IH s' v' r r' H E D D'. destruct H as [s' v' T'|b' C'|b' W'|t l' He'|b' _|t l' _]; cbn [app] in E; try discriminate.
    + destruct (token_chars _ _ T') as [N F]; destruct F as [|? ? F _]; [now destruct N|];
        exfalso; cbn [app] in E; injection E as E _; eapply (tchar_neq _ _ F); [|symmetry; exact E]; cbn; tauto.
    + injection E as E. rewrite <- ?app_assoc in E. exfalso. symmetry in E. eapply elements_head; eauto.
    + injection E as E. rewrite <- ?app_assoc in E. destruct (IH _ _ _ _ He' E) as [-> ->]. auto.
  - intros b W s' v' r r' H E D D'. destruct H as [s' v' T'|b' C'|b' W'|t l He|b' W'|t l Hm]; cbn [app] in E; try discriminate.
    + destruct (token_chars _ _ T') as [N F]; destruct F as [|? ? F _]; [now destruct N|];
        exfalso; cbn [app] in E; injection E as E _; eapply (tchar_neq _ _ F); [|symmetry; exact E]; cbn; tauto.
    + injection E as E. rewrite <- ?app_assoc in E. apply ws_split in E as [-> _]; cbn [app]; auto.
    + injection E as E. rewrite <- ?app_assoc in E. exfalso. eapply members_head; eauto.
  - intros s l Hm IH s' v' r r' H E D D'. destruct H as [s' v' T'|b' C'|b' W'|t l' He'|b' W'|t l' Hm']; cbn [app] in E; try discriminate.
    + destruct (token_chars _ _ T') as [N F]; destruct F as [|? ? F _]; [now destruct N|];
        exfalso; cbn [app] in E; injection E as E _; eapply (tchar_neq _ _ F); [|symmetry; exact E]; cbn; tauto.
    + injection E as E. rewrite <- ?app_assoc in E. exfalso. symmetry in E. eapply members_head; eauto.
    + injection E as E. rewrite <- ?app_assoc in E. destruct (IH _ _ _ _ Hm' E) as [-> ->]. auto.
  - intros a s v b A V IH B s' l' r r' H E.
    destruct H as [a' s' v' b' A' V' B'|a' s' v' b' t l A' V' B' Ht]; rewrite <- ?app_assoc in E;
      (apply ws_split in E as [-> E]; auto; try (eapply head_dark; eauto)).
    + cbn [app] in E. destruct (IH _ _ _ _ V' E) as [-> ->]; auto. apply app_inv_head in E. apply ws_split in E as [-> _]; auto.
    + exfalso. cbn [app] in E. destruct (IH _ _ _ _ V' E) as [-> ->]; auto. apply app_inv_head in E. apply ws_split in E as [-> E]; auto. discriminate.
  - intros a s v b t l A V IH B Ht IHt s' l' r r' H E.
    destruct H as [a' s' v' b' A' V' B'|a' s' v' b' t' l' A' V' B' Ht']; rewrite <- ?app_assoc in E;
      (apply ws_split in E as [-> E]; auto; try (eapply head_dark; eauto)).
    + exfalso. cbn [app] in E. destruct (IH _ _ _ _ V' E) as [-> ->]; auto. apply app_inv_head in E. apply ws_split in E as [-> E]; auto. discriminate.
    + cbn [app] in E. destruct (IH _ _ _ _ V' E) as [-> ->]; auto. apply app_inv_head in E. apply ws_split in E as [-> E]; auto; try (cbn; intuition discriminate).
      injection E as E. destruct (IHt _ _ _ _ Ht' E) as [-> ->]. auto.
  - intros a k b c s v d A K B C V IH D s' l' r r' H E.
    destruct H as [a' k' b' c' s' v' d' A' K' B' C' V' D'|a' k' b' c' s' v' d' t l A' K' B' C' V' D' Ht]; rewrite <- ?app_assoc in E;
      (apply ws_split in E as [-> E]; auto; try (cbn; intuition discriminate)); cbn [app] in E; rewrite <- ?app_assoc in E;
      injection E as E; destruct (closed_split _ K _ _ _ K' E) as [-> E']; clear E; rename E' into E;
      cbn [app] in E; apply ws_split in E as [-> E]; auto; try (cbn; intuition discriminate);
      injection E as E; rewrite <- ?app_assoc in E; apply ws_split in E as [-> E]; auto; try (eapply head_dark; eauto).
    + cbn [app] in E. destruct (IH _ _ _ _ V' E) as [-> ->]; auto. apply app_inv_head in E. apply ws_split in E as [-> _]; auto.
    + exfalso. cbn [app] in E. destruct (IH _ _ _ _ V' E) as [-> ->]; auto. apply app_inv_head in E. apply ws_split in E as [-> E]; auto. discriminate.
  - intros a k b c s v d t l A K B C V IH D Ht IHt s' l' r r' H E.
    destruct H as [a' k' b' c' s' v' d' A' K' B' C' V' D'|a' k' b' c' s' v' d' t' l' A' K' B' C' V' D' Ht']; rewrite <- ?app_assoc in E;
      (apply ws_split in E as [-> E]; auto; try (cbn; intuition discriminate)); cbn [app] in E; rewrite <- ?app_assoc in E;
      injection E as E; destruct (closed_split _ K _ _ _ K' E) as [-> E']; clear E; rename E' into E;
      cbn [app] in E; apply ws_split in E as [-> E]; auto; try (cbn; intuition discriminate);
      injection E as E; rewrite <- ?app_assoc in E; apply ws_split in E as [-> E]; auto; try (eapply head_dark; eauto).
    + exfalso. cbn [app] in E. destruct (IH _ _ _ _ V' E) as [-> ->]; auto. apply app_inv_head in E. apply ws_split in E as [-> E]; auto. discriminate.
    + cbn [app] in E. destruct (IH _ _ _ _ V' E) as [-> ->]; auto. apply app_inv_head in E. apply ws_split in E as [-> E]; auto.
      injection E as E. destruct (IHt _ _ _ _ Ht' E) as [-> ->]. auto.
Qed.

(** ** The grammar of RFC 8259 is part of it *)
Lemma closed_app a b : closed a -> closed b -> closed (a ++ b).
Proof. induction 1; intros H'; cbn [app]; [exact H'|apply cl_char; auto|apply cl_esc; auto]. Qed.
Lemma char_closed p : json_char p -> closed p.
Proof.
  intros [(c & -> & S & L & N1 & N2)|[(c & -> & I)|(h & -> & L & H)]].
  - destruct (N.ltb_spec c 128) as [Q|Q].
    + rewrite utf8_ascii by auto. assert (E : N_of_ascii (ascii_of_N c) = c) by (apply N_ascii_embedding; lia).
      constructor; [| |constructor]; intros D; rewrite D in E; cbn in E; lia.
    + pose proof (utf8_high c S Q) as F. induction F as [|a u Ha _ IH]; constructor; auto; intros ->; cbn in Ha; lia.
  - apply cl_esc. constructor.
  - change ([ascii_of_N 92; "u"%char] ++ h) with (c_bs :: "u"%char :: h). apply cl_esc. clear L. induction H as [|c h Hc _ IH]; [constructor|].
    assert (Q : (Ascii.eqb c c_dq || Ascii.eqb c c_bs)%bool = false).
    { unfold hexdig, lit in Hc. cbn in Hc. repeat (destruct Hc as [<-|Hc]; [reflexivity|]). destruct Hc. }
    apply orb_false_iff in Q as [Q1 Q2]. apply Ascii.eqb_neq in Q1, Q2. now constructor.
Qed.
Lemma body_closed b : json_string (lit """" ++ b ++ lit """") -> closed b.
Proof.
  intros (l & E & F). injection E as E. apply app_inj_tail in E as [-> _].
  induction F as [|p l Hp _ IH]; [constructor|]. cbn [concat]. apply closed_app; auto. now apply char_closed.
Qed.

Lemma says_lax :
  (forall s v, says_value s v -> lax_value s v)
  /\ (forall s l, says_elements s l -> lax_elements s l)
  /\ (forall s l, says_members s l -> lax_members s l).
Proof.
  apply says_ind.
  - do 2 constructor.
  - do 2 constructor.
  - do 2 constructor.
  - intros s J. apply lv_token. apply number_chars in J as [N F]. now constructor.
  - intros b J. apply (lv_string b). now apply body_closed.
  - intros b W. now apply (lv_array0 b).
  - intros s l _ H. now apply (lv_array s).
  - intros b W. now apply (lv_object0 b).
  - intros s l _ H. now apply (lv_object s).
  - intros. now constructor.
  - intros a s v b t l A _ V B _ H. now apply (le_more a s v b t l).
  - intros a k b c s v d A K B C _ V D. apply (lm_last a k b c s v d); auto. now apply body_closed.
  - intros a k b c s v d t l A K B C _ V D _ H. apply (lm_more a k b c s v d t l); auto. now apply body_closed.
Qed.

Lemma says_unique s v v' : says_value s v -> says_value s v' -> v = v'.
Proof.
  intros H H'. apply says_lax in H, H'. destruct (proj1 lax_unique _ _ H _ _ [] [] H' eq_refl I I) as [_ E]. exact E.
Qed.

(** ** Scanning the text of a document *)
Definition esc (t : str) : str := flat_map (fun c => if Ascii.eqb c c_dq then [c_bs; c_dq] else [c]) t.
Lemma quote_esc t : quote t = c_dq :: esc t ++ [c_dq].
Proof. reflexivity. Qed.
Lemma esc_cons c t : esc (c :: t) = (if Ascii.eqb c c_dq then [c_bs; c_dq] else [c]) ++ esc t.
Proof. reflexivity. Qed.
Lemma written_esc t b : written t b <-> b = esc t.
Proof.
  unfold written. rewrite quote_esc. split.
  - intros E. injection E as E. apply app_inj_tail in E as [E _]. auto.
  - intros ->. reflexivity.
Qed.

Lemma step_out c q : scan_step SOut c = Some q -> c = c_dq /\ q = SIn \/ c <> c_dq /\ c <> c_bs /\ q = SOut.
Proof.
  cbn [scan_step]. destruct (Ascii.eqb_spec c c_dq) as [->|N].
  - intros [= <-]. auto.
  - destruct (Ascii.eqb_spec c c_bs) as [->|N']; [intros E; vm_compute in E; discriminate|].
    destruct (_ || _); intros [= <-]. auto.
Qed.
Lemma step_in c q : scan_step SIn c = Some q ->
  c = c_dq /\ q = SOut \/ c = c_bs /\ q = SEsc \/ c <> c_dq /\ c <> c_bs /\ q = SIn.
Proof.
  cbn [scan_step]. destruct (Ascii.eqb_spec c c_dq) as [->|N]; [intros [= <-]; auto|].
  destruct (Ascii.eqb_spec c c_bs) as [->|N']; [intros [= <-]; auto|].
  destruct (_ <? _)%N; intros [= <-]; auto.
Qed.
Lemma step_esc c q : scan_step SEsc c = Some q -> q = SIn.
Proof. cbn [scan_step]. destruct (existsb _ _); intros [= <-]; auto. Qed.

Lemma scan_cons q c s r : scan q (c :: s) = Some r -> exists q', scan_step q c = Some q' /\ scan q' s = Some r.
Proof. cbn [scan]. destruct (scan_step q c) as [q'|]; [eauto|discriminate]. Qed.

Lemma scan_esc_out t r : scan SOut (esc t ++ [c_dq]) = Some r -> r = SIn.
Proof.
  induction t as [|c t IH]; [intros [= <-]; reflexivity|]. rewrite esc_cons. destruct (Ascii.eqb_spec c c_dq) as [->|N]; cbn [app].
  - intros E. vm_compute in E. discriminate.
  - intros E. apply scan_cons in E as (q & S & E). apply step_out in S as [[S _]|(_ & _ & ->)]; [contradiction|]. auto.
Qed.
Lemma scan_esc_in t : forall r,
  (scan SIn (esc t ++ [c_dq]) = Some r -> r = SIn \/ r = SOut /\ closed (esc t))
  /\ (scan SEsc (esc t ++ [c_dq]) = Some r -> r = SIn \/ r = SOut /\ closed (c_bs :: esc t)).
Proof.
  induction t as [|c t IH]; intros r.
  - split; [intros [= <-]; right; split; [reflexivity|constructor]|intros [= <-]; now left].
  - rewrite esc_cons. destruct (Ascii.eqb_spec c c_dq) as [->|N]; cbn [app]; split; intros E.
    + change (scan SIn (esc t ++ [c_dq]) = Some r) in E. apply IH in E as [E|[E C]]; auto. right. split; auto. now apply cl_esc.
    + change (scan SOut (esc t ++ [c_dq]) = Some r) in E. apply scan_esc_out in E. auto.
    + apply scan_cons in E as (q & S & E). apply step_in in S as [[S _]|[[-> ->]|(_ & M & ->)]]; [contradiction| |].
      * now apply IH in E.
      * apply IH in E as [E|[E C]]; auto. right. split; auto. now constructor.
    + apply scan_cons in E as (q & S & E). apply step_esc in S as ->. apply IH in E as [E|[E C]]; auto. right. split; auto. now apply cl_esc.
Qed.

Lemma scan_quote_in t r : scan SIn (quote t) = Some r -> r = SIn.
Proof. rewrite quote_esc. intros E. change (scan SOut (esc t ++ [c_dq]) = Some r) in E. now apply scan_esc_out in E. Qed.
Lemma scan_quote_out t r : scan SOut (quote t) = Some r -> r = SIn \/ r = SOut /\ closed (esc t).
Proof. rewrite quote_esc. intros E. change (scan SIn (esc t ++ [c_dq]) = Some r) in E. now apply scan_esc_in in E. Qed.

(** Once a reader has lost track of the quotation marks it never finds it again. *)
Lemma scan_app_some q s t r : scan q (s ++ t) = Some r -> exists q', scan q s = Some q' /\ scan q' t = Some r.
Proof. rewrite scan_app. destruct (scan q s) as [q'|]; [eauto|discriminate]. Qed.

Definition stays (s : str) : Prop := forall r, scan SIn s = Some r -> r = SIn.
Lemma stays_app a b : stays a -> stays b -> stays (a ++ b).
Proof. intros A B r E. apply scan_app_some in E as (q & E1 & E2). apply A in E1 as ->. now apply B. Qed.
Lemma stays_plain s : Forall (fun c => c <> c_dq /\ c <> c_bs) s -> stays s.
Proof.
  induction 1 as [|c s [N1 N2] _ IH]; intros r E; [now injection E|]. apply scan_cons in E as (q & S & E).
  apply step_in in S as [[S _]|[[S _]|(_ & _ & ->)]]; [contradiction|contradiction|]. now apply IH.
Qed.
Lemma stays_commas ts : Forall stays ts -> stays (commas ts).
Proof.
  induction 1 as [|t ts H _ IH]; [apply stays_plain; constructor|]. rewrite commas_cons. apply stays_app; auto. apply stays_app; auto.
  destruct ts; apply stays_plain; repeat constructor; discriminate.
Qed.
Lemma digits_stay s : Forall is_digit s -> Forall (fun c => c <> c_dq /\ c <> c_bs) s.
Proof.
  apply Forall_impl. intros c D. apply digit_list in D. cbn in D. repeat (destruct D as [<-|D]; [split; discriminate|]). destruct D.
Qed.
Lemma sign_stays b : Forall (fun c => c <> c_dq /\ c <> c_bs) (sign b).
Proof. destruct b; repeat constructor; discriminate. Qed.
Lemma integer_stays z s : integer_text z s -> stays s.
Proof. intros (u & -> & (_ & D & _) & _). apply stays_plain. apply Forall_app. split; [apply sign_stays|now apply digits_stay]. Qed.
Lemma fixed_stays neg m e s : fixed_text neg m e s -> stays s.
Proof.
  intros (i & f & z & -> & (_ & D & _) & _). apply Forall_app in D as [Di Df]. apply stays_plain. repeat rewrite Forall_app.
  repeat split; try apply sign_stays; try now apply digits_stay. repeat constructor; discriminate.
Qed.
Lemma shows_stays d : forall s, shows d s -> stays s.
Proof.
  induction d as [|s|y|l|l IH|l IH] using doc_ind'; intros t S.
  - inversion S. apply stays_plain. repeat constructor; discriminate.
  - inversion S; subst; try (apply stays_plain; repeat constructor; discriminate).
    + eapply integer_stays; eauto.
    + eapply fixed_stays; eauto.
    + intros r. apply scan_quote_in.
  - inversion S; subst. intros r. apply scan_quote_in.
  - inversion S; subst. apply stays_app; [apply stays_plain; repeat constructor; discriminate|].
    apply stays_app; [|apply stays_plain; repeat constructor; discriminate]. apply stays_commas. apply Forall_map. apply Forall_forall.
    intros x _ r. apply scan_quote_in.
  - inversion S as [| | | | | | | | | | |? ts S'|]; subst. apply stays_app; [apply stays_plain; repeat constructor; discriminate|].
    apply stays_app; [|apply stays_plain; repeat constructor; discriminate]. apply stays_commas.
    clear - IH S'. induction S'; inversion IH; subst; constructor; auto.
  - inversion S as [| | | | | | | | | | | |? ts S']; subst. apply stays_app; [apply stays_plain; repeat constructor; discriminate|].
    apply stays_app; [|apply stays_plain; repeat constructor; discriminate]. apply stays_commas.
    clear - IH S'. induction S'; inversion IH; subst; cbn [map combine]; constructor; auto. cbn [fst snd].
    apply stays_app; [intros r; apply scan_quote_in|]. apply stays_app; [apply stays_plain; repeat constructor; discriminate|]. auto.
Qed.

(** If it never loses track, it finds the structure of the document. *)
Definition turns (s : str) (P : Prop) : Prop := forall r, scan SOut s = Some r -> r = SIn \/ r = SOut /\ P.
Lemma turns_app a b (P Q : Prop) : turns a P -> turns b Q -> stays b -> turns (a ++ b) (P /\ Q).
Proof.
  intros A B S r E. apply scan_app_some in E as (q & E1 & E2). apply A in E1 as [-> |[-> HP]].
  - left. now apply S.
  - apply B in E2 as [->|[-> HQ]]; auto.
Qed.
Lemma turns_impl s (P Q : Prop) : (P -> Q) -> turns s P -> turns s Q.
Proof. intros H T r E. destruct (T r E) as [?|[? ?]]; auto. Qed.
Lemma turns_token s (P : Prop) : scan SOut s = Some SOut -> P -> turns s P.
Proof. intros E H r E'. rewrite E in E'. injection E' as <-. auto. Qed.
Lemma turns_none s (P : Prop) : scan SOut s = None -> turns s P.
Proof. intros E r E'. rewrite E in E'. discriminate. Qed.
Lemma turns_char c : scan_step SOut c = Some SOut -> turns [c] True.
Proof. intros E r. cbn [scan]. rewrite E. intros [= <-]. auto. Qed.
Lemma turns_quote t : turns (quote t) (closed (esc t)).
Proof. intros r. apply scan_quote_out. Qed.

Lemma stays_com : stays [c_com].
Proof. apply stays_plain. repeat constructor; discriminate. Qed.
Lemma stays_col : stays [c_col].
Proof. apply stays_plain. repeat constructor; discriminate. Qed.
Lemma stays_rs : stays [c_rs].
Proof. apply stays_plain. repeat constructor; discriminate. Qed.
Lemma stays_rb : stays [c_rb].
Proof. apply stays_plain. repeat constructor; discriminate. Qed.
#[local] Hint Resolve stays_app stays_com stays_col stays_rs stays_rb stays_commas : core.

Section Lists.
  Context {A : Type} (R : A -> jval -> Prop).
  Lemma turns_elements l ts : Forall2 (fun d t => turns t (exists v, lax_value t v /\ R d v)) l ts -> Forall stays ts -> l <> [] ->
    turns (commas ts) (exists vs, lax_elements (commas ts) vs /\ Forall2 R l vs).
  Proof.
    induction 1 as [|d t l ts H F IH]; intros S N; [now destruct N|]. inversion S as [|? ? S1 S2]; subst. rewrite commas_cons.
    destruct ts as [|u ts].
    - inversion F; subst. cbn [commas app]. rewrite app_nil_r. eapply turns_impl; [|exact H]. intros (v & V & K).
      exists [v]. split; [|repeat constructor; auto]. pose proof (le_last [] t v [] ws_nil V ws_nil) as Q. cbn [app] in Q. now rewrite app_nil_r in Q.
    - assert (N' : l <> []) by (intros ->; inversion F). specialize (IH S2 N').
      assert (T : turns (t ++ [c_com] ++ commas (u :: ts)) ((exists v, lax_value t v /\ R d v) /\ True /\ (exists vs, lax_elements (commas (u :: ts)) vs /\ Forall2 R l vs))).
      { apply turns_app; auto. apply turns_app; auto. apply turns_char; reflexivity. }
      eapply turns_impl; [|exact T]. intros ((v & V & K) & _ & vs & Vs & Ks). exists (v :: vs). split; [|now constructor].
      pose proof (le_more [] t v [] _ vs ws_nil V ws_nil Vs) as Q. exact Q.
  Qed.
End Lists.

Lemma turns_members l ts : Forall2 (fun (kd : str * doc) t => turns t (exists v, lax_value t v /\ keeps (snd kd) v)) l ts -> Forall stays ts -> l <> [] ->
  let ms := map (fun kt => quote (fst kt) ++ [c_col] ++ snd kt) (combine (map fst l) ts) in
  turns (commas ms) (exists vs, lax_members (commas ms) vs
    /\ Forall2 (fun kd kv => written (fst kd) (fst kv) /\ keeps (snd kd) (snd kv)) l vs).
Proof.
  induction 1 as [|[k d] t l ts H F IH]; intros S N; [now destruct N|]. inversion S as [|? ? S1 S2]; subst. cbn [map combine fst snd].
  rewrite commas_cons. cbn [fst snd] in H.
  assert (T1 : turns (quote k ++ [c_col] ++ t) (closed (esc k) /\ True /\ (exists v, lax_value t v /\ keeps d v))).
  { apply turns_app; auto; [apply turns_quote|]. apply turns_app; auto. apply turns_char; reflexivity. }
  destruct l as [|kd l].
  - inversion F; subst. cbn [map combine commas app]. rewrite !app_nil_r. eapply turns_impl; [|exact T1].
    intros (C & _ & v & V & K). exists [(esc k, v)]. split; [|repeat constructor; auto; cbn; now apply written_esc].
    pose proof (lm_last [] (esc k) [] [] t v [] ws_nil C ws_nil ws_nil V ws_nil) as Q. cbn [app] in Q. rewrite app_nil_r in Q.
    rewrite quote_esc. exact Q.
  - destruct ts as [|u ts]; [inversion F|]. assert (N' : kd :: l <> []) by discriminate. specialize (IH S2 N').
    cbv zeta in IH. cbn [map combine fst snd] in IH |- *. match goal with |- turns (_ ++ [c_com] ++ ?r) _ => set (rest := r) in * end.
    assert (Sr : stays rest).
    { subst rest. apply stays_commas. change (Forall stays (map (fun kt => quote (fst kt) ++ [c_col] ++ snd kt) (combine (map fst (kd :: l)) (u :: ts)))).
      apply Forall_map. clear - S2. revert S2. generalize (map fst (kd :: l)) as ks. generalize (u :: ts) as us. induction us as [|x us IH]; intros [|y ks] F;
        cbn [combine]; try constructor.
      - inversion F; subst. cbn [fst snd]. apply stays_app; [intros r; apply scan_quote_in|auto].
      - inversion F; subst. auto. }
    assert (T : turns ((quote k ++ [c_col] ++ t) ++ [c_com] ++ rest)
      ((closed (esc k) /\ True /\ (exists v, lax_value t v /\ keeps d v)) /\ True
       /\ (exists vs, lax_members rest vs /\ Forall2 (fun kd kv => written (fst kd) (fst kv) /\ keeps (snd kd) (snd kv)) (kd :: l) vs))).
    { apply turns_app; auto. apply turns_app; auto. apply turns_char; reflexivity. }
    eapply turns_impl; [|exact T]. intros ((C & _ & v & V & K) & _ & vs & Vs & Ks). exists ((esc k, v) :: vs).
    split; [|constructor; auto; split; auto; cbn; now apply written_esc].
    pose proof (lm_more [] (esc k) [] [] t v [] _ vs ws_nil C ws_nil ws_nil V ws_nil Vs) as Q. rewrite quote_esc, <- !app_assoc.
    cbn [app] in Q |- *. exact Q.
Qed.

Lemma keeps_number s : json_number s -> lax_value s (VNumber s).
Proof. intros J. apply lv_token. apply number_chars in J as [N F]. now constructor. Qed.
Lemma keeps_quote t : closed (esc t) -> lax_value (quote t) (VString (esc t)).
Proof. intros C. rewrite quote_esc. now apply lv_string. Qed.

Lemma shows_lax d : forall s, shows d s -> turns s (exists v, lax_value s v /\ keeps d v).
Proof.
  induction d as [|s|y|l|l IH|l IH] using doc_ind'; intros t S.
  - inversion S. apply turns_token; [reflexivity|]. exists VNull. split; repeat constructor.
  - inversion S as [| | |? ? ? Hi|? ? ? ? ? Hf| | | | | | | |]; subst.
    + apply turns_token; [reflexivity|]. eexists. split; [apply lv_token, tk_true|constructor].
    + apply turns_token; [reflexivity|]. eexists. split; [apply lv_token, tk_false|constructor].
    + pose proof (number_of_int _ _ Hi) as J. apply turns_token; [now apply scan_number|].
      eexists. split; [now apply keeps_number|now constructor].
    + pose proof (number_of_fixed _ _ _ _ Hf) as J. apply turns_token; [now apply scan_number|].
      eexists. split; [now apply keeps_number|now constructor].
    + now apply turns_none.
    + now apply turns_none.
    + now apply turns_none.
    + eapply turns_impl; [|apply turns_quote]. intros C. eexists. split; [now apply keeps_quote|]. constructor. now apply written_esc.
  - inversion S; subst. eapply turns_impl; [|apply turns_quote]. intros C. eexists. split; [now apply keeps_quote|]. constructor. now apply written_esc.
  - inversion S; subst.
    destruct l as [|x l].
    { apply turns_token; [reflexivity|]. exists (VArray []). split; [apply (lv_array0 [] ws_nil)|]. apply (kp_texts [] []). constructor. }
    assert (Q : turns (commas (map quote (x :: l))) (exists vs, lax_elements (commas (map quote (x :: l))) vs
      /\ Forall2 (fun t v => exists b, v = VString b /\ written t b) (x :: l) vs)).
    { apply turns_elements; [|apply Forall_map, Forall_forall; intros y _ r; apply scan_quote_in|discriminate].
      generalize (x :: l) as u. induction u as [|y u IHu]; constructor; auto. eapply turns_impl; [|apply turns_quote].
      intros C. eexists. split; [now apply keeps_quote|]. eexists. split; [reflexivity|]. now apply written_esc. }
    assert (T : turns ([c_ls] ++ commas (map quote (x :: l)) ++ [c_rs]) (True /\ (exists vs, lax_elements (commas (map quote (x :: l))) vs
      /\ Forall2 (fun t v => exists b, v = VString b /\ written t b) (x :: l) vs) /\ True)).
    { apply turns_app; [apply turns_char; reflexivity| |].
      - apply turns_app; auto. apply turns_char; reflexivity.
      - apply stays_app; auto. apply stays_commas. apply Forall_map, Forall_forall. intros y _ r. apply scan_quote_in. }
    eapply turns_impl; [|exact T]. intros (_ & (vs & V & K) & _). exists (VArray vs). split; [now apply lv_array|].
    assert (exists bs, vs = map VString bs /\ Forall2 written (x :: l) bs) as (bs & -> & W); [|now constructor].
    clear - K. induction K as [|y v u vs (b & -> & W) _ (bs & -> & Ws)]; [exists []; auto|]. exists (b :: bs). auto.
  - inversion S as [| | | | | | | | | | |? ts S'|]; subst. destruct l as [|x l].
    { inversion S'; subst. apply turns_token; [reflexivity|]. exists (VArray []). split; [apply (lv_array0 [] ws_nil)|]. repeat constructor. }
    assert (St : Forall stays ts) by (clear - S'; induction S'; constructor; eauto using shows_stays).
    assert (Q : turns (commas ts) (exists vs, lax_elements (commas ts) vs /\ Forall2 keeps (x :: l) vs)).
    { apply turns_elements; [|exact St|discriminate]. clear - IH S'. induction S'; inversion IH; subst; constructor; auto. }
    assert (T : turns ([c_ls] ++ commas ts ++ [c_rs]) (True /\ (exists vs, lax_elements (commas ts) vs /\ Forall2 keeps (x :: l) vs) /\ True)).
    { apply turns_app; [apply turns_char; reflexivity| |auto]. apply turns_app; auto. apply turns_char; reflexivity. }
    eapply turns_impl; [|exact T]. intros (_ & (vs & V & K) & _). exists (VArray vs). split; [now apply lv_array|now constructor].
  - inversion S as [| | | | | | | | | | | |? ts S']; subst. destruct l as [|x l].
    { inversion S'; subst. apply turns_token; [reflexivity|]. exists (VObject []). split; [apply (lv_object0 [] ws_nil)|]. repeat constructor. }
    assert (St : Forall stays ts) by (clear - S'; induction S'; constructor; eauto using shows_stays).
    match goal with |- turns (_ ++ commas ?m ++ _) _ => set (ms := m) end.
    assert (Q : turns (commas ms) (exists vs, lax_members (commas ms) vs
       /\ Forall2 (fun kd kv => written (fst kd) (fst kv) /\ keeps (snd kd) (snd kv)) (x :: l) vs)).
    { apply (turns_members (x :: l) ts); [|exact St|discriminate]. clear - IH S'. induction S'; inversion IH; subst; constructor; auto. }
    assert (Sm : stays (commas ms)).
    { apply stays_commas. subst ms. apply Forall_map. clear - St. revert St. generalize (map fst (x :: l)) as ks. induction ts as [|y us IH]; intros [|z ks] F;
        cbn [combine]; try constructor.
      - inversion F; subst. cbn [fst snd]. apply stays_app; [intros r; apply scan_quote_in|auto].
      - inversion F; subst. auto. }
    assert (T : turns ([c_lb] ++ commas ms ++ [c_rb]) (True /\ (exists vs, lax_members (commas ms) vs
       /\ Forall2 (fun kd kv => written (fst kd) (fst kv) /\ keeps (snd kd) (snd kv)) (x :: l) vs) /\ True)).
    { apply turns_app; [apply turns_char; reflexivity| |auto]. apply turns_app; auto. apply turns_char; reflexivity. }
    eapply turns_impl; [|exact T]. intros (_ & (vs & V & K) & _). exists (VObject vs). split; [now apply lv_object|now constructor].
Qed.

(** ** Results *)
Lemma lax_of d s : shows d s -> scan SOut s = Some SOut -> exists v, lax_value s v /\ keeps d v.
Proof. intros S E. destruct (shows_lax d s S SOut E) as [?|[_ H]]; [discriminate|exact H]. Qed.

Lemma says_keeps d s v : shows d s -> says_value s v -> keeps d v.
Proof.
  intros S V. assert (J : json_value s) by (eapply says_grammar; eauto).
  destruct (lax_of d s S (proj1 scan_json s J)) as (v' & L & K).
  apply says_lax in V. destruct (proj1 lax_unique _ _ V _ _ [] [] L eq_refl I I) as [_ ->]. exact K.
Qed.

Lemma text_value d s : shows d s -> json_text s -> json_value s.
Proof.
  intros S T. destruct (lax_of d s S (scan_text s T)) as (v & L & _). destruct T as (a & x & b & E & A & J & B).
  destruct (proj1 (grammar_iff x) J) as [w W]. pose proof (proj1 says_lax _ _ W) as Lx.
  assert (E' : [] ++ (s ++ []) = a ++ (x ++ b)) by (rewrite app_nil_r; exact E).
  apply ws_split in E' as [<- E']; auto; [|apply ws_nil|eapply head_dark; eauto|eapply head_dark; eauto].
  assert (Db : delim b) by (rewrite <- (app_nil_r b); apply ws_delim; [exact B|exact I]).
  destruct (proj1 lax_unique _ _ L _ _ [] b Lx E' I Db) as [-> _]. exact J.
Qed.
Lemma value_text s : json_value s -> json_text s.
Proof. intros J. exists [], s, []. rewrite app_nil_r. split; [reflexivity|]. split; [apply ws_nil|]. split; [exact J|apply ws_nil]. Qed.

Definition qstring (b : str) : Prop := json_string (lit """" ++ b ++ lit """").
Lemma says_strings :
  (forall s v, says_value s v -> Forall qstring (strings v))
  /\ (forall s l, says_elements s l -> Forall qstring (flat_map strings l))
  /\ (forall s l, says_members s l -> Forall qstring (flat_map (fun kv => fst kv :: strings (snd kv)) l)).
Proof.
  apply says_ind; intros; cbn [strings flat_map fst snd app]; try apply Forall_nil; try rewrite app_nil_r; auto.
  - apply Forall_app. auto.
  - constructor; [assumption|apply Forall_app; auto].
Qed.

Lemma qstring_quote t b : written t b -> qstring b -> json_string (quote t).
Proof. unfold written. now intros ->. Qed.

Lemma keeps_lawful d : forall v, keeps d v -> Forall qstring (strings v) -> lawful d.
Proof.
  induction d as [|s|y|l|l IH|l IH] using doc_ind'; intros v K F.
  - constructor.
  - inversion K; subst; constructor. cbn [strings] in F. inversion F; subst. eapply qstring_quote; eauto.
  - inversion K; subst; constructor. cbn [strings] in F. inversion F; subst. eapply qstring_quote; eauto.
  - inversion K as [| | | | | |? bs W| |]; subst. constructor. cbn [strings] in F. clear - W F. induction W as [|t b l bs H _ IHW]; constructor.
    + cbn [map flat_map strings app] in F. inversion F; subst. eapply qstring_quote; eauto.
    + apply IHW. cbn [map flat_map strings app] in F. now inversion F.
  - inversion K as [| | | | | | |? vs W|]; subst. constructor. cbn [strings] in F. clear - W F IH. induction W as [|d v l vs H _ IHW]; constructor;
      inversion IH; subst; cbn [flat_map] in F; apply Forall_app in F as [F1 F2]; eauto.
  - inversion K as [| | | | | | | |? vs W]; subst. constructor. cbn [strings] in F. clear - W F IH.
    induction W as [|d v l vs [H1 H2] _ IHW]; constructor; inversion IH; subst; cbn [flat_map app] in F; inversion F as [|? ? Q F']; subst;
      apply Forall_app in F' as [F1 F2]; eauto. split; eauto. eapply qstring_quote; eauto.
Qed.

Lemma commas_members' l : l <> [] -> Forall (fun kt => json_string (quote (fst kt)) /\ json_value (snd kt)) l ->
  json_members (commas (map (fun kt => quote (fst kt) ++ [c_col] ++ snd kt) l)).
Proof.
  intros N F. induction F as [|[k t] l [Hk H] F IH]; [destruct (N eq_refl)|]. cbn [fst snd] in *.
  cbn [map]. rewrite commas_cons. destruct l as [|u l]; cbn [map fst snd] in *.
  - pose proof (jm_last [] _ [] [] t [] ws_nil Hk ws_nil ws_nil H ws_nil) as K. rewrite app_nil_r in K. cbn [commas]. rewrite !app_nil_r. exact K.
  - assert (u :: l <> []) as N' by discriminate. specialize (IH N').
    pose proof (jm_more [] _ [] [] t [] _ ws_nil Hk ws_nil ws_nil H ws_nil IH) as K.
    cbn [app lit list_ascii_of_string] in K. rewrite <- app_assoc. exact K.
Qed.
Lemma object_value' l : Forall (fun kt => json_string (quote (fst kt)) /\ json_value (snd kt)) l ->
  json_value ([c_lb] ++ commas (map (fun kt => quote (fst kt) ++ [c_col] ++ snd kt) l) ++ [c_rb]).
Proof.
  intros F. destruct l as [|x l].
  - exact (jv_object0 [] ws_nil).
  - apply jv_object. now apply commas_members'.
Qed.
Lemma lawful_output d : forall s, lawful d -> shows d s -> json_value s.
Proof.
  induction d as [|s|y|l|l IH|l IH] using doc_ind'; intros t V S.
  - inversion S. apply jv_null.
  - inversion S; subst.
    + apply jv_true.
    + apply jv_false.
    + apply jv_number. eapply number_of_int; eauto.
    + apply jv_number. eapply number_of_fixed; eauto.
    + inversion V.
    + inversion V.
    + inversion V.
    + inversion V; subst. now apply jv_string.
  - inversion S; subst. inversion V; subst. now apply jv_string.
  - inversion S; subst. inversion V; subst. apply array_value. apply Forall_map. eapply Forall_impl; [|eassumption].
    intros. now apply jv_string.
  - inversion S as [| | | | | | | | | | |? ts S'|]; subst. inversion V as [| | | | | | |? V'|]; subst. apply array_value.
    clear - IH S' V'. induction S'; inversion IH; inversion V'; subst; constructor; auto.
  - inversion S as [| | | | | | | | | | | |? ts S']; subst. inversion V as [| | | | | | | |? V']; subst. apply object_value'.
    clear - IH S' V'. induction S'; inversion IH; inversion V'; subst; cbn [map combine]; constructor; auto.
    cbn [fst snd]. match goal with H : _ /\ _ |- _ => destruct H end. auto.
Qed.
Lemma lawful_iff d s : shows d s -> (json_text s <-> lawful d).
Proof.
  intros S. split.
  - intros T. destruct (proj1 (grammar_iff s) (text_value d s S T)) as [v V]. eapply keeps_lawful; [eapply says_keeps; eauto|].
    eapply says_strings; eauto.
  - intros L. apply value_text. eapply lawful_output; eauto.
Qed.

(** ** Decoding *)
Definition special (c : ascii) : bool := (Ascii.eqb c c_dq || Ascii.eqb c c_bs || (N_of_ascii c <? 32)%N)%bool.
Definition cost (t : str) : nat := list_sum (map (fun c => if special c then 2 else 1) t).
Lemma cost_cons c t : cost (c :: t) = (if special c then 2 else 1) + cost t.
Proof. reflexivity. Qed.
Lemma cost_app a b : cost (a ++ b) = cost a + cost b.
Proof. unfold cost. now rewrite map_app, list_sum_app. Qed.
Lemma cost_bound t : cost t <= 2 * length t.
Proof. induction t as [|c t IH]; [cbn; lia|]. rewrite cost_cons. cbn [length]. destruct (special c); lia. Qed.
Lemma cost_plain t : Forall (fun c => special c = false) t -> cost t = length t.
Proof. induction 1 as [|c t H _ IH]; [reflexivity|]. rewrite cost_cons, H, IH. reflexivity. Qed.
Lemma high_special a : (128 <= N_of_ascii a)%N -> special a = false.
Proof.
  intros H. unfold special. destruct (Ascii.eqb_spec a c_dq) as [->|_]; [cbn in H; lia|].
  destruct (Ascii.eqb_spec a c_bs) as [->|_]; [cbn in H; lia|]. destruct (N.ltb_spec (N_of_ascii a) 32); [lia|reflexivity].
Qed.
Lemma utf8_plain c : scalar_value c -> (32 <= c)%N -> c <> 34%N -> c <> 92%N -> Forall (fun a => special a = false) (utf8 c).
Proof.
  intros S L N1 N2. destruct (N.ltb_spec c 128) as [Q|Q].
  - rewrite utf8_ascii by auto. constructor; [|constructor]. unfold special.
    assert (E : N_of_ascii (ascii_of_N c) = c) by (apply N_ascii_embedding; lia). rewrite E.
    destruct (Ascii.eqb_spec (ascii_of_N c) c_dq) as [D|_]; [rewrite D in E; cbn in E; lia|].
    destruct (Ascii.eqb_spec (ascii_of_N c) c_bs) as [D|_]; [rewrite D in E; cbn in E; lia|].
    destruct (N.ltb_spec c 32); [lia|reflexivity].
  - eapply Forall_impl; [|apply utf8_high; eauto]. apply high_special.
Qed.
Lemma utf8_length c : length (utf8 c) <= 4.
Proof. unfold utf8. destruct (c <? 128)%N; [cbn; lia|]. destruct (c <? 2048)%N; [cbn; lia|]. destruct (c <? 65536)%N; cbn; lia. Qed.
Lemma utf8_cost c : scalar_value c -> cost (utf8 c) <= 4.
Proof.
  intros S. destruct (N.ltb_spec c 128) as [Q|Q].
  - rewrite utf8_ascii by auto. rewrite cost_cons. cbn. destruct (special _); lia.
  - rewrite cost_plain; [apply utf8_length|]. eapply Forall_impl; [|apply utf8_high; eauto]. apply high_special.
Qed.
Lemma pair_scalar n1 n2 : (55296 <= n1 < 56320)%N -> (56320 <= n2 < 57344)%N -> scalar_value (65536 + (n1 - 55296) * 1024 + (n2 - 56320)).
Proof. intros. right. lia. Qed.
Lemma hex4_length s n : hex4 s n -> length s = 4.
Proof. intros (a & b & c & d & na & nb & nc & nd & -> & _). reflexivity. Qed.

Lemma decode_cost b t : decodes b t -> cost t <= length b.
Proof.
  induction 1 as [|c b t S L N1 N2 _ IH|e n b t I _ IH|s n b t H S _ IH|s1 n1 s2 n2 b t H1 B1 H2 B2 _ IH].
  - cbn. lia.
  - rewrite cost_app, app_length, cost_plain by now apply utf8_plain. lia.
  - rewrite cost_cons. cbn [length]. destruct (special _); lia.
  - rewrite cost_app. cbn [length]. rewrite app_length, (hex4_length _ _ H). pose proof (utf8_cost n S). lia.
  - rewrite cost_app. cbn [length]. rewrite app_length. cbn [length]. rewrite app_length, (hex4_length _ _ H1), (hex4_length _ _ H2).
    pose proof (utf8_cost _ (pair_scalar n1 n2 B1 B2)). lia.
Qed.
Lemma esc_length t : length (esc t) <= cost t.
Proof.
  induction t as [|c t IH]; [cbn; lia|]. rewrite esc_cons, cost_cons, app_length. unfold special.
  destruct (Ascii.eqb c c_dq); cbn [length orb]; [lia|]. destruct (_ || _)%bool; lia.
Qed.
Lemma cost_esc t : cost t <= length (esc t) -> Forall (fun c => c <> c_bs /\ (32 <= N_of_ascii c)%N) t.
Proof.
  induction t as [|c t IH]; intros H; [constructor|]. rewrite esc_cons, cost_cons, app_length in H. pose proof (esc_length t) as Q.
  unfold special in H. destruct (Ascii.eqb_spec c c_dq) as [->|N]; cbn [length orb] in H.
  - constructor; [split; [discriminate|cbn; lia]|]. apply IH. lia.
  - destruct (Ascii.eqb_spec c c_bs) as [->|N']; cbn [orb] in H; [lia|].
    destruct (N.ltb_spec (N_of_ascii c) 32); [lia|]. constructor; [auto|apply IH; lia].
Qed.
Lemma decodes_scalars b t : decodes b t -> exists l, t = concat (map utf8 l) /\ Forall scalar_value l.
Proof.
  induction 1 as [|c b t S L N1 N2 _ (l & -> & F)|e n b t I _ (l & -> & F)|s n b t H S _ (l & -> & F)|s1 n1 s2 n2 b t H1 B1 H2 B2 _ (l & -> & F)].
  - exists []. auto.
  - exists (c :: l). auto.
  - exists (n :: l). assert (n < 128)%N.
    { unfold escapes in I. cbn in I. repeat (destruct I as [I|I]; [injection I as <- <-; lia|]). destruct I. }
    split; [cbn [map concat]; now rewrite utf8_ascii|]. constructor; auto. left. lia.
  - exists (n :: l). auto.
  - eexists (_ :: l). split; [reflexivity|]. constructor; auto. now apply pair_scalar.
Qed.
Lemma concat_clean l : Forall scalar_value l -> Forall (fun c => c <> c_bs /\ (32 <= N_of_ascii c)%N) (concat (map utf8 l)) ->
  Forall (fun c => scalar_value c /\ (32 <= c)%N /\ c <> 92%N) l.
Proof.
  induction 1 as [|c l S _ IH]; intros F; [constructor|]. cbn [map concat] in F. apply Forall_app in F as [F1 F2]. constructor; auto.
  split; auto. destruct (N.ltb_spec c 128) as [Q|Q]; [|lia]. rewrite utf8_ascii in F1 by auto. inversion F1 as [|? ? [G1 G2] _]; subst.
  rewrite N_ascii_embedding in G2 by lia. split; auto. intros ->. now apply G1.
Qed.
Lemma esc_plain u t : Forall (fun a => special a = false) u -> esc (u ++ t) = u ++ esc t.
Proof.
  induction 1 as [|c u H _ IH]; [reflexivity|]. cbn [app]. rewrite esc_cons, IH. unfold special in H.
  destruct (Ascii.eqb c c_dq); [discriminate|reflexivity].
Qed.
Lemma decodes_clean t : decodes (esc t) t <-> clean t.
Proof.
  split.
  - intros D. destruct (decodes_scalars _ _ D) as (l & E & F). exists l. split; auto. apply concat_clean; auto. rewrite <- E.
    apply cost_esc. now apply decode_cost.
  - intros (l & -> & F). induction F as [|c l (S & G & B) _ IH]; [constructor|]. cbn [map concat]. destruct (N.eqb_spec c 34) as [-> |N].
    + change (esc (utf8 34 ++ concat (map utf8 l))) with (c_bs :: c_dq :: esc (concat (map utf8 l))).
      change (utf8 34 ++ concat (map utf8 l)) with (ascii_of_N 34 :: concat (map utf8 l)). apply dc_escape; [now left|exact IH].
    + rewrite esc_plain by now apply utf8_plain. now apply dc_char.
Qed.

Lemma keeps_conveys d : forall v, keeps d v -> valid d -> conveys d v.
Proof.
  induction d as [|s|y|l|l IH|l IH] using doc_ind'; intros v K V.
  - inversion K. constructor.
  - inversion K as [|? |? ? ? Hi|? ? ? ? ? Hf|? ? W| | | |]; subst.
    + constructor.
    + destruct Hi as (u & -> & (N & D & E) & C). constructor; auto. now apply canonical_int.
    + destruct Hf as (i & f & z & -> & (N & D & E) & C & L & Q). apply Forall_app in D as [Di Df].
      apply (cv_flt k neg m e _ (z * 10 ^ 0) (10 ^ 6) z); auto.
      * exists i, f, [], 0%Z. rewrite app_nil_r. split; [reflexivity|]. split; auto. split; auto. split; auto. split; [now left|].
        rewrite E, L. auto.
      * now rewrite Z.mul_1_r.
    + apply written_esc in W as ->. constructor. apply decodes_clean. now inversion V.
  - inversion K as [| | | | |? ? W| | |]; subst. apply written_esc in W as ->. constructor. apply decodes_clean. now inversion V.
  - inversion K as [| | | | | |? bs W| |]; subst. constructor. inversion V as [| | | | | |? F| |]; subst. clear - W F. induction W as [|t b l bs H _ IHW]; constructor;
      inversion F; subst; auto. apply written_esc in H as ->. now apply decodes_clean.
  - inversion K as [| | | | | | |? vs W|]; subst. constructor. inversion V as [| | | | | | |? F|]; subst. clear - W F IH. induction W; constructor;
      inversion F; inversion IH; subst; auto.
  - inversion K as [| | | | | | | |? vs W]; subst. constructor. inversion V as [| | | | | | | |? F]; subst. clear - W F IH. induction W as [|d v l vs [H1 H2] _ IHW]; constructor;
      inversion F as [|? ? [F1 F2] F3]; inversion IH; subst; auto. split; auto. apply written_esc in H1 as ->. now apply decodes_clean.
Qed.
Lemma conveys_valid d : forall v, keeps d v -> conveys d v -> valid d.
Proof.
  induction d as [|s|y|l|l IH|l IH] using doc_ind'; intros v K V.
  - constructor.
  - inversion K as [|? |? ? ? Hi|? ? ? ? ? Hf|? ? W| | | |]; subst; constructor. apply written_esc in W as ->. apply decodes_clean. now inversion V.
  - inversion K as [| | | | |? ? W| | |]; subst. apply written_esc in W as ->. constructor. apply decodes_clean. now inversion V.
  - inversion K as [| | | | | |? bs W| |]; subst. constructor. inversion V as [| | | | | |? bs' F E0 E| |]; subst.
    assert (bs' = bs) as ->. { clear - E. revert bs E. induction bs' as [|x bs' IH]; intros [|y bs] E; try discriminate; auto. injection E as <- E. f_equal. auto. }
    clear - W F. induction W as [|t b l bs H _ IHW]; constructor; inversion F; subst; auto. apply written_esc in H as ->. now apply decodes_clean.
  - inversion K as [| | | | | | |? vs W|]; subst. constructor. inversion V as [| | | | | | |? ? F|]; subst. clear - W F IH. induction W; constructor;
      inversion F; inversion IH; subst; eauto.
  - inversion K as [| | | | | | | |? vs W]; subst. constructor. inversion V as [| | | | | | | |? ? F]; subst. clear - W F IH. induction W as [|d v l vs [H1 H2] _ IHW]; constructor;
      inversion F as [|? ? ? ? [F1 F2] F3]; inversion IH; subst; eauto. split; eauto. apply written_esc in H1. rewrite H1 in F1. now apply decodes_clean.
Qed.
Lemma conveys_iff d s : shows d s -> ((exists v, says_value s v /\ conveys d v) <-> valid d).
Proof.
  intros S. split.
  - intros (v & V & C). eapply conveys_valid; [eapply says_keeps; eauto|exact C].
  - intros V. destruct (proj1 (grammar_iff s) (valid_output d s V S)) as [v H]. exists v. split; auto. apply keeps_conveys; auto. eapply says_keeps; eauto.
Qed.

(** ** ToJSONString *)
Lemma writes_fun X h i b s s' : writes X h i b s -> writes X h i b s' -> s = s'.
Proof.
  intros [n W] [n' W']. specialize (W (n + n') ltac:(lia)). specialize (W' (n + n') ltac:(lia)).
  rewrite W in W'. injection W' as E. now apply app_inv_head in E.
Qed.
Lemma writes_shows X h F i d b : reachable X h -> escape_ok X -> rep_obj (x_typed_nil X) (view h) F i d -> proper (x_is64 X) d ->
  (exists l, i = IMap l \/ i = IArr l) -> exists s, writes X h i b s /\ shows d s.
Proof.
  intros R E Rep P [l [-> | ->]].
  - destruct (map_text X h F l d b R E Rep P) as (n & s & S & W). exists s. split; auto. now exists n.
  - destruct (arr_text X h F l d b R E Rep P) as (n & s & S & W). exists s. split; auto. now exists n.
Qed.
Section Writes.
  Context X h F i d b s (R : reachable X h) (E : escape_ok X) (Rep : rep_obj (x_typed_nil X) (view h) F i d) (P : proper (x_is64 X) d)
    (K : exists l, i = IMap l \/ i = IArr l) (W : writes X h i b s).
  Lemma writes_text : shows d s.
  Proof. destruct (writes_shows X h F i d b R E Rep P K) as (s' & W' & S). now rewrite (writes_fun _ _ _ _ _ _ W W'). Qed.
  Lemma writes_structure v : says_value s v -> keeps d v.
  Proof. apply says_keeps, writes_text. Qed.
  Lemma writes_lawful : json_text s <-> lawful d.
  Proof. apply lawful_iff, writes_text. Qed.
  Lemma writes_conveys : (exists v, says_value s v /\ conveys d v) <-> valid d.
  Proof. apply conveys_iff, writes_text. Qed.
  Lemma writes_value : json_text s -> exists v, says_value s v.
  Proof. intros T. apply grammar_iff. apply (text_value d); auto. apply writes_text. Qed.
End Writes.
Lemma writes_one X h F i d b : reachable X h -> escape_ok X -> rep_obj (x_typed_nil X) (view h) F i d -> proper (x_is64 X) d ->
  (exists l, i = IMap l \/ i = IArr l) -> exists s, writes X h i b s /\ forall s', writes X h i b s' -> s' = s.
Proof.
  intros R E Rep P K. destruct (writes_shows X h F i d b R E Rep P K) as (s & W & _). exists s. split; [exact W|].
  intros s' W'. exact (writes_fun _ _ _ _ _ _ W' W).
Qed.
Lemma writes_keeps X h F i d b s : reachable X h -> escape_ok X -> rep_obj (x_typed_nil X) (view h) F i d -> proper (x_is64 X) d ->
  (exists l, i = IMap l \/ i = IArr l) -> writes X h i b s -> json_text s -> exists v, says_value s v /\ keeps d v.
Proof.
  intros R E Rep P K W T. destruct (writes_value X h F i d b s R E Rep P K W T) as [v V]. exists v. split; [exact V|].
  exact (writes_structure X h F i d b s R E Rep P K W v V).
Qed.
