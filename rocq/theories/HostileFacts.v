(** * Strings that end in a backslash, written and read back *)
From Coq Require Import Ascii String List NArith ZArith Bool Arith Lia.
From Verif Require Import GoStr GoNum GoFloat Heap Common ValueModel ArrayModel MapModel JsonModel ParserModel
  StrLemmas SpecDict DictLemmas SpecNum NumLemmas SpecWorld Inv World Reach SpecFloat FloatFacts SpecDoc RepFacts
  SpecText SpecToken TreeParser ParseWorld ParseRefine ParseTop TextRun TokenFacts SpecParse ParseFacts PosFacts TypedFacts
  TextDec ParseMore TidyFacts SpecRender RenderFacts ShowFacts SpecRound RoundFacts SerialFacts SpecHostile.
Import ListNotations.

(** ** Parity of the quotes *)

(** Reading [s] toggles the quotation [n] times, modulo two. *)
Definition toggles (s : str) (n : nat) : Prop :=
  forall p q rest, p <> Some c_bs ->
    exists p', p' <> Some c_bs
      /\ snd (outside p q (s ++ rest)) = snd (outside p' (xorb q (Nat.odd n)) rest).

Lemma toggles_app a b n m : toggles a n -> toggles b m -> toggles (a ++ b) (n + m).
Proof.
  intros A B p q rest P. rewrite <- app_assoc. destruct (A p q (b ++ rest) P) as (p1 & P1 & ->).
  destruct (B p1 (xorb q (Nat.odd n)) rest P1) as (p2 & P2 & ->). exists p2. split; auto.
  rewrite Nat.odd_add, xorb_assoc. reflexivity.
Qed.

Lemma outside_step_nq p c q rest : c <> c_dq -> snd (outside p q (c :: rest)) = snd (outside (Some c) q rest).
Proof.
  intros N. cbn [outside]. destruct (Ascii.eqb_spec c c_dq); [contradiction|]. cbn [andb].
  destruct (outside (Some c) q rest). reflexivity.
Qed.

Lemma toggles_plain s : Forall (fun c => c <> c_dq /\ c <> c_bs) s -> toggles s 0.
Proof.
  induction 1 as [|c s [A B] _ IH]; intros p q rest P; cbn [Nat.odd Nat.even negb].
  - exists p. rewrite xorb_false_r. auto.
  - cbn [app]. rewrite outside_step_nq by auto. destruct (IH (Some c) q rest) as (p' & P' & E); [congruence|].
    exists p'. auto.
Qed.

Lemma outside_esc_any s : forall p q rest, s <> [] ->
  snd (outside (Some p) q (esc s ++ rest)) = snd (outside (Some (last s c_sp)) q rest).
Proof.
  induction s as [|c s IH]; intros p q rest N; [destruct (N eq_refl)|]. rewrite esc_cons.
  assert (H : snd (outside (Some c) q (esc s ++ rest)) = snd (outside (Some (last (c :: s) c_sp)) q rest)).
  { destruct s as [|d s]; [reflexivity|]. rewrite (IH c q rest) by discriminate. reflexivity. }
  destruct (Ascii.eqb_spec c_dq c) as [<-|Nc].
  - rewrite <- app_assoc. change ([c_bs; c_dq] ++ esc s ++ rest) with (c_bs :: c_dq :: (esc s ++ rest)).
    rewrite outside_step_nq by discriminate. cbn [outside]. change (Ascii.eqb c_dq c_dq) with true.
    change (Ascii.eqb c_bs c_bs) with true. cbn [negb andb].
    destruct (outside (Some c_dq) q (esc s ++ rest)). exact H.
  - cbn [app]. rewrite outside_step_nq by congruence. exact H.
Qed.

Lemma outside_dq p q rest : p <> Some c_bs -> snd (outside p q (c_dq :: rest)) = snd (outside (Some c_dq) (negb q) rest).
Proof.
  intros P. cbn [outside]. change (Ascii.eqb c_dq c_dq) with true. cbn [andb].
  destruct p as [c|]; [destruct (Ascii.eqb_spec c c_bs); [congruence|]|]; reflexivity.
Qed.

Lemma toggles_quote t : toggles (quote t) (slash t).
Proof.
  intros p q rest P. rewrite quote_esc, <- !app_assoc. cbn [app]. rewrite outside_dq by auto. unfold slash.
  destruct t as [|c t].
  - change (esc [] ++ c_dq :: rest) with (c_dq :: rest). rewrite outside_dq by discriminate. exists (Some c_dq).
    split; [discriminate|]. rewrite negb_involutive. change (Ascii.eqb (last [] c_sp) c_bs) with false.
    cbn [Nat.odd Nat.even negb]. now rewrite xorb_false_r.
  - rewrite outside_esc_any by discriminate. destruct (Ascii.eqb_spec (last (c :: t) c_sp) c_bs) as [E|E].
    + rewrite E. exists (Some c_dq). split; [discriminate|]. cbn [outside]. change (Ascii.eqb c_dq c_dq) with true.
      change (Ascii.eqb c_bs c_bs) with true. cbn [negb andb Nat.odd Nat.even]. rewrite xorb_true_r.
      destruct (outside (Some c_dq) (negb q) rest). reflexivity.
    + rewrite outside_dq by congruence. exists (Some c_dq). split; [discriminate|].
      rewrite negb_involutive. cbn [Nat.odd Nat.even negb]. now rewrite xorb_false_r.
Qed.

Lemma toggles_commas {A} (f : A -> str) (g : A -> nat) l : Forall (fun x => toggles (f x) (g x)) l ->
  toggles (commas (map f l)) (total (map g l)).
Proof.
  induction 1 as [|x l H _ IH]; [apply toggles_plain; constructor|]. cbn [map total fold_right]. rewrite commas_cons.
  apply toggles_app; auto. apply (toggles_app _ _ 0); auto. apply toggles_plain.
  destruct (map f l); repeat constructor; discriminate.
Qed.

Lemma toggles_wrap a b s n : a <> c_dq -> a <> c_bs -> b <> c_dq -> b <> c_bs -> toggles s n -> toggles ([a] ++ s ++ [b]) n.
Proof.
  intros. apply (toggles_app _ _ 0). { apply toggles_plain. repeat constructor; auto. }
  rewrite <- (Nat.add_0_r n). apply toggles_app; auto. apply toggles_plain. repeat constructor; auto.
Qed.

Lemma infs k f : match f with FFin _ _ _ => True | _ => Forall (fun c => c <> c_dq /\ c <> c_bs) (scalar_json (SFlt k f)) end.
Proof. destruct f as [|[]|]; cbn; auto; repeat constructor; discriminate. Qed.

Lemma scalar_plain is64 s : proper_scalar is64 s -> (forall t, s <> SStr t) ->
  Forall (fun c => c <> c_dq /\ c <> c_bs) (scalar_json s).
Proof.
  intros P N. assert (finite s \/ ~ finite s) as [F|F].
  { destruct s as [| |k z|k [| |]]; cbn; tauto. }
  - destruct (RoundFacts.scalar_token is64 s P F N) as [_ T]. eapply Forall_impl; [|exact T].
    intros c [D|D]; [apply digit_token in D | apply tokenb_ok in D]; destruct D as (_ & B & Q & _); split; auto; intros ->; apply Q; left; reflexivity.
  - destruct s as [| |k z|k f]; cbn in F; try tauto. pose proof (infs k f). destruct f; tauto.
Qed.

Lemma render_toggles is64 d : proper is64 d -> toggles (render d) (slashes d).
Proof.
  induction d as [|s|y|l|l IH|l IH] using doc_ind'; intros P.
  - apply toggles_plain. repeat constructor; discriminate.
  - inversion P; subst. destruct s as [t| | |]; cbn [slashes].
    + cbn [render scalar_json]. rewrite <- quote_quoted. apply toggles_quote.
    + apply toggles_plain, (scalar_plain is64); auto. discriminate.
    + apply toggles_plain, (scalar_plain is64); auto. discriminate.
    + apply toggles_plain, (scalar_plain is64); auto. discriminate.
  - apply toggles_quote.
  - cbn [render slashes]. apply toggles_wrap; try discriminate. apply toggles_commas. apply Forall_forall. intros. apply toggles_quote.
  - inversion P as [| | | |? P'|]; subst. cbn [render slashes]. apply toggles_wrap; try discriminate. apply toggles_commas.
    rewrite Forall_forall in *. auto.
  - inversion P as [| | | | |? P']; subst. cbn [render slashes]. apply toggles_wrap; try discriminate. apply toggles_commas.
    rewrite Forall_forall in *. intros x Hx. apply toggles_app; [apply toggles_quote|].
    apply (toggles_app _ _ 0); auto. apply toggles_plain. repeat constructor; discriminate.
Qed.

Lemma odd_slashes X h F m d b : reachable X h -> escape_ok X ->
  rep_obj (x_typed_nil X) (view h) F (IMap m) d -> proper (x_is64 X) d -> Nat.odd (slashes d) = true ->
  exists n s, (forall fuel, n <= fuel -> map_ToJSONString fuel X h m (Some b) = Ok (Some (b ++ s), []))
    /\ shows d s
    /\ forall h' m' h2, reachable X h' -> Parse X s h' <> Ok (GVal m', h2).
Proof.
  intros R E Rep P O. pose proof (view_impl h (reachable_Inv _ _ R)) as I.
  destruct (map_json_rep X h (view h) F E I m _ Rep) as (n & J). exists n, (render d). split; [|split].
  - intros f L. cbn [map_ToJSONString]. rewrite (J f L). reflexivity.
  - eapply shows_render; eauto.
  - intros h' m' h2 R' Q. pose proof (parse_balance X h' _ m' h2 R' Q) as B.
    destruct (render_toggles _ d P None false [] ltac:(discriminate)) as (p' & _ & T). rewrite app_nil_r in T.
    destruct (outside None false (render d)) as [o q]. destruct B as (_ & _ & ->). cbn [snd outside] in T. rewrite O in T. discriminate.
Qed.

(** ** At most one of them *)
Lemma slash_0 s : slash s = 0 -> forall u, s <> u ++ [c_bs].
Proof. unfold slash. intros H u ->. rewrite last_last, ascii_eqb_refl in H. discriminate. Qed.

Lemma total_0 l : total l = 0 -> Forall (fun n => n = 0) l.
Proof. induction l as [|n l IH]; cbn; intros H; constructor; [lia|]. apply IH. unfold total. lia. Qed.

Lemma ordinary_writable d : ordinary d -> slashes d = 0 -> writable d.
Proof.
  induction d as [|s|y|l|l IH|l IH] using doc_ind'; intros O S.
  - constructor.
  - inversion O; subst; [|now constructor]. constructor. split; auto. now apply slash_0.
  - inversion O; subst. constructor. split; auto. now apply slash_0.
  - inversion O as [| | | |? A| |]; subst. constructor. cbn [slashes] in S. apply total_0 in S. rewrite Forall_map in S.
    rewrite Forall_forall in *. intros x Hx. split; [now apply A|]. now apply slash_0, S.
  - inversion O as [| | | | |? A|]; subst. constructor. cbn [slashes] in S. apply total_0 in S. rewrite Forall_map in S.
    rewrite Forall_forall in *. intros x Hx. apply IH; auto.
  - inversion O as [| | | | | |? A]; subst. constructor. cbn [slashes] in S. apply total_0 in S. rewrite Forall_map in S.
    rewrite Forall_forall in *. intros x Hx. destruct (A x Hx) as (A1 & A2 & A3). specialize (S x Hx). cbn beta in S.
    split; [split; auto; apply slash_0; lia|]. split; auto. apply IH; auto. lia.
Qed.

Lemma one_slash X h F m d b h' : reachable X h -> escape_ok X ->
  rep_obj (x_typed_nil X) (view h) F (IMap m) d -> proper (x_is64 X) d -> ordinary d -> slashes d <= 1 -> reachable X h' ->
  exists n s, (forall fuel, n <= fuel -> map_ToJSONString fuel X h m (Some b) = Ok (Some (b ++ s), []))
    /\ shows d s
    /\ forall d', parses X h' s (GVal d') -> comes_back d d'.
Proof.
  intros R E Rep P O S R'. destruct (slashes d) as [|[|]] eqn:Q; [| |lia].
  - destruct (round_trip X h F m d b h' R E Rep P (ordinary_writable d O Q) R') as (n & s & d' & A & B & C & D).
    exists n, s. repeat split; auto. intros d2 G. pose proof (parses_fun _ _ _ _ _ G D) as G'. now inversion G'.
  - destruct (odd_slashes X h F m d b R E Rep P) as (n & s & A & B & C); [now rewrite Q|]. exists n, s. repeat split; auto.
    intros d' (h2 & m2 & G & _). destruct (C _ _ _ R' G).
Qed.
