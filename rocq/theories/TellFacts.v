(** * Programs can see all of the content of objects (proofs for C82) *)
From Coq Require Import Ascii String List NArith ZArith Bool Lia.
From Verif Require Import GoStr StrLemmas GoNum GoFloat Heap Common ValueModel ArrayModel MapModel JsonModel ParserModel
  GetterModel NamedModel PtrModel PtrListModel TimeModel SpecDict DictLemmas SpecWorld Inv World Reach ObjFacts SpecAlike ClientModel
  AlikeFacts AlikeRead AlikeTop SpecTell.
Import ListNotations.
Local Open Scope nat_scope.

(** ** The state of a program is closed *)
Lemma held_ok h i : Inv h -> ok_iface h i -> ok_object (view h) i.
Proof.
  intros I H. pose proof (view_impl _ I) as V.
  destruct i as [| |t [p|]|m|[m|]|a|[a|]|v|[v|]| | |[?|]|[?|]| |[?|]| | |[?|]|[?|]|? [?|]]; cbn in *; auto.
  - destruct H as (s & H & T). exists s. split; auto. now apply (im_var _ _ V).
  - destruct H as [mo H]. destruct (map_dict_ex _ _ _ I H) as [d D]. exists d. now apply (im_map _ _ V).
  - destruct H as [mo H]. destruct (map_dict_ex _ _ _ I H) as [d D]. exists d. now apply (im_map _ _ V).
  - destruct H as [[l H] N]. exists l. apply (im_arr _ _ V). auto.
  - destruct H as [[l H] N]. exists l. apply (im_arr _ _ V). auto.
  - destruct H as [j H]. exists j. now apply (im_val _ _ V).
  - destruct H as [j H]. exists j. now apply (im_val _ _ V).
Qed.
Lemma val_closed h v i : Inv h -> w_val (view h) v = Some i -> ok_object (view h) i.
Proof. intros I H. apply (im_val _ _ (view_impl _ I)) in H. apply held_ok; auto. eapply inv_val; eauto. Qed.
Lemma elem_ok h o : Inv h -> ok_oloc h o -> ok_value_handle (view h) o.
Proof. intros I. destruct o as [v|]; cbn; auto. intros [i H]. exists i. now apply (im_val _ _ (view_impl _ I)). Qed.
Lemma arr_closed h a l : Inv h -> w_arr (view h) a = Some l -> Forall (ok_value_handle (view h)) l.
Proof.
  intros I H. apply (im_arr _ _ (view_impl _ I)) in H as [H _]. apply (inv_arr _ I) in H.
  eapply Forall_impl; [|exact H]. intros o. now apply elem_ok.
Qed.
Lemma map_closed h m d : Inv h -> w_map (view h) m = Some d -> Forall (ok_value_handle (view h)) (dict_values d).
Proof.
  intros I H. apply (im_map _ _ (view_impl _ I)) in H as (mo & _ & _ & H & _). apply (inv_arr _ I) in H.
  eapply Forall_impl; [|exact H]. intros o. now apply elem_ok.
Qed.

(** ** Reading *)
Definition reads (c : api) : bool :=
  match c with AMapGetKeys _ | AMapValues _ | AArrGetValues _ | AValGetObject _ | AVarGet _ => true | _ => false end.
Definition rd (w : world) (c : api) : reply := out_reply (fst (spec_call c w)).
Lemma bind_lift {A B} (f : heap -> res A) (k : A -> M B) h r : bind (mlift f) k h = Ok r -> exists a, k a h = Ok r.
Proof. unfold bind, mlift, rbind. destruct (f h); try discriminate. eauto. Qed.
Lemma ask_read X L h c : reachable X h -> reads c = true -> ok_call (view h) c -> ask X L (QApi c) h = Ok (rd (view h) c, h).
Proof.
  intros R Rd K. pose proof (reachable_Inv _ _ R) as I. destruct (run_call_ok h _ c I (view_impl _ I) K) as (h' & E & _).
  cbn [ask]. unfold bind. rewrite E.
  assert (h' = h) as ->.
  { destruct c; try discriminate Rd; cbn [run_call] in E;
      repeat (apply bind_lift in E as [? E]); unfold ret in E; congruence. }
  reflexivity.
Qed.

(** What the objects are. *)
Definition kind_reads (w : world) (a i : nat) : list api :=
  match w_map w a, w_arr w a, w_val w a, w_var w a with
  | Some _, _, _, _ => [AMapGetKeys i; AMapValues i]
  | _, Some _, _, _ => [AArrGetValues i]
  | _, _, Some _, _ => [AValGetObject i]
  | _, _, _, Some _ => [AVarGet i]
  | _, _, _, _ => []
  end.
Definition handles_in (w : world) (a : nat) : list nat :=
  match w_map w a, w_arr w a, w_val w a with
  | Some d, _, _ => ohs (dict_values d)
  | _, Some l, _ => ohs l
  | _, _, Some i => iface_handles i
  | _, _, _ => []
  end.

(** One kind per identity. *)
Lemma kinds_apart h a : Inv h ->
  match w_map (view h) a, w_arr (view h) a, w_val (view h) a, w_var (view h) a with
  | Some _, None, None, None | None, Some _, None, None | None, None, Some _, None | None, None, None, Some _
  | None, None, None, None => True
  | _, _, _, _ => False
  end.
Proof.
  intros _. cbn. destruct (nth_error h a) as [[]|]; auto.
  - destruct (nth_error h (m_vals m)) as [[]|]; auto.
  - destruct (existsb (owns a) h); auto.
Qed.

Lemma ohs_kinds w w' l l' : Forall (ok_value_handle w) l -> Forall (ok_value_handle w') l' ->
  olist_zero l = olist_zero l' -> Forall2 (same_kind w w') (ohs l) (ohs l').
Proof.
  intros H. revert l'. induction H as [|o l Ho _ IH]; intros [|o' l'] H' E; try discriminate E; [constructor|].
  inversion H' as [|? ? Ho' Hl']; subst. cbn in E. injection E as E1 E2. cbn [ohs flat_map]. apply Forall2_app; [|now apply IH].
  destruct o as [v|], o' as [v'|]; try discriminate E1; [|constructor]. destruct Ho as [i Hv], Ho' as [i' Hv'].
  constructor; [|constructor]. eapply sk_val; eauto.
Qed.
Lemma held_kinds w w' i i' : ok_object w i -> ok_object w' i' -> rename_iface zero i = rename_iface zero i' ->
  Forall2 (same_kind w w') (iface_handles i) (iface_handles i').
Proof.
  intros H H' E.
  destruct i as [| |t [p|]|m|[m|]|a|[a|]|v|[v|]| | |[?|]|[?|]| |[?|]| | |[?|]|[?|]|? [?|]],
           i' as [| |t' [p'|]|m'|[m'|]|a'|[a'|]|v'|[v'|]| | |[?|]|[?|]| |[?|]| | |[?|]|[?|]|? [?|]]; try discriminate E; cbn [iface_handles oh]; try constructor; try constructor.
  - injection E as <-. destruct H as (s & H & T), H' as (s' & H' & T'). eapply sk_var; eauto. congruence.
  - destruct H, H'. eapply sk_map; eauto.
  - destruct H, H'. eapply sk_map; eauto.
  - destruct H, H'. eapply sk_arr; eauto.
  - destruct H, H'. eapply sk_arr; eauto.
  - destruct H, H'. eapply sk_val; eauto.
  - destruct H, H'. eapply sk_val; eauto.
Qed.

(** ** The table of a program that reads *)
Definition note (T : list nat) (r : reply) : res (fact * list nat) := Ok (fst r, map (fun x => place x (T ++ snd r)) (snd r)).
Definition at_T (T : list nat) : nat -> nat := fun i => nth i T 0.
Fixpoint table (w : world) (cs : list api) (T : list nat) : list nat :=
  match cs with [] => T | c :: cs => table w cs (T ++ snd (rd w (rename_api (at_T T) c))) end.
Fixpoint notes (w : world) (cs : list api) (T : list nat) : seen :=
  match cs with
  | [] => []
  | c :: cs => let r := rd w (rename_api (at_T T) c) in note T r :: notes w cs (T ++ snd r)
  end.
Fixpoint proper (w : world) (cs : list api) (T : list nat) : Prop :=
  match cs with
  | [] => True
  | c :: cs => reads c = true /\ Forall (fun i => i < length T) (api_handles c) /\ ok_call w (rename_api (at_T T) c)
               /\ proper w cs (T ++ snd (rd w (rename_api (at_T T) c)))
  end.

Lemma table_app w cs ds T : table w (cs ++ ds) T = table w ds (table w cs T).
Proof. revert T. induction cs as [|c cs IH]; intros T; cbn; auto. Qed.
Lemma notes_app w cs ds T : notes w (cs ++ ds) T = notes w cs T ++ notes w ds (table w cs T).
Proof. revert T. induction cs as [|c cs IH]; intros T; cbn; auto. now rewrite IH. Qed.
Lemma proper_app w cs ds T : proper w (cs ++ ds) T <-> proper w cs T /\ proper w ds (table w cs T).
Proof. revert T. induction cs as [|c cs IH]; intros T; cbn; [tauto|]. rewrite IH. tauto. Qed.
Lemma notes_length w cs T : length (notes w cs T) = length cs.
Proof. revert T. induction cs as [|c cs IH]; intros T; cbn; auto. Qed.

(** *** Comparing replies *)
Definition scalar_dec (s t : scalar) : {s = t} + {s <> t}.
Proof. repeat decide equality. Defined.
Definition iface_dec (i j : iface) : {i = j} + {i <> j}.
Proof. repeat decide equality. Defined.
Definition out_same (o q : out) : bool :=
  match o, q with
  | OKeys l, OKeys m => if list_eq_dec (list_eq_dec ascii_dec) l m then true else false
  | OElems l, OElems m => if list_eq_dec (fun a b : option nat => ltac:(decide equality; apply Nat.eq_dec) : {a = b} + {a <> b}) l m then true else false
  | OObj i, OObj j => if iface_dec i j then true else false
  | OScalar s, OScalar t => if scalar_dec s t then true else false
  | _, _ => false
  end.
Definition same_note (x y : res (fact * list nat)) : bool :=
  match x, y with
  | Ok (FOut o, l), Ok (FOut q, m) => out_same o q && (if list_eq_dec Nat.eq_dec l m then true else false)
  | _, _ => false
  end.
Lemma same_note_eq x y : same_note x y = true -> x = y.
Proof.
  destruct x as [[f l]| | |]; try discriminate. destruct f; try discriminate. destruct y as [[g m]| | |]; try discriminate.
  destruct g; try discriminate. cbn. intros H. apply andb_prop in H as [H1 H2].
  destruct (list_eq_dec Nat.eq_dec l m) as [->|]; [|discriminate]. f_equal. f_equal. f_equal.
  destruct o, o0; try discriminate H1; cbn in H1;
    match type of H1 with (if ?d then _ else _) = _ => destruct d; [congruence|discriminate] end.
Qed.
Lemma same_note_refl w T c : reads c = true -> same_note (note T (rd w c)) (note T (rd w c)) = true.
Proof.
  intros R. unfold note, rd. destruct c; try discriminate R; cbn [spec_call fst out_reply same_note]; apply andb_true_intro; split;
    try (destruct (list_eq_dec Nat.eq_dec _ _); congruence); cbn [out_same];
    match goal with |- (if ?d then _ else _) = _ => destruct d; congruence end.
Qed.

(** *** The program that reads and stops at the first surprise *)
Fixpoint next (rs : list request) (es s : seen) {struct s} : option request :=
  match s with
  | [] => hd_error rs
  | x :: s => match rs, es with
              | _ :: rs, e :: es => if same_note e x then next rs es s else None
              | _, _ => None
              end
  end.
Definition checker (w : world) (cs : list api) (T : list nat) : client := next (map QApi cs) (notes w cs T).

Definition known (e : res (fact * list nat)) : Prop := same_note e e = true.
Lemma notes_known w cs T : proper w cs T -> Forall known (notes w cs T).
Proof.
  revert T. induction cs as [|c cs IH]; intros T P; cbn; constructor.
  - apply same_note_refl. destruct P as (R & _). destruct c; try discriminate R; exact R.
  - apply IH. apply P.
Qed.
Lemma next_pre rs1 rs2 es1 es2 : length rs1 = length es1 -> Forall known es1 -> next (rs1 ++ rs2) (es1 ++ es2) es1 = hd_error rs2.
Proof.
  revert rs1. induction es1 as [|e es1 IH]; intros [|r rs1] L K; try discriminate L; [reflexivity|].
  inversion K as [|? ? Ke Kl]; subst. cbn. rewrite Ke. apply IH; auto.
Qed.
Lemma next_off rs1 q rs2 es1 e es2 x : length rs1 = length es1 -> Forall known es1 -> same_note e x = false ->
  next (rs1 ++ q :: rs2) (es1 ++ e :: es2) (es1 ++ [x]) = None.
Proof.
  revert rs1. induction es1 as [|y es1 IH]; intros [|r rs1] L K N; try discriminate L; [cbn; now rewrite N|].
  inversion K as [|? ? Ke Kl]; subst. cbn. rewrite Ke. apply IH; auto.
Qed.

Section Run.
  Context (X : ext) (L : timelib) (h h' : heap) (R : reachable X h) (R' : reachable X h').
  Let w := view h.
  Let w' := view h'.

  Lemma nth_kind T T' i : Forall2 (same_kind w w') T T' -> i < length T -> same_kind w w' (nth i T 0) (nth i T' 0).
  Proof. intros F. revert i. induction F; intros [|i] Li; cbn in *; try lia; auto. apply IHF. lia. Qed.

  (** A proper reading of linked tables can be asked on both sides. *)
  Lemma rename_ok c T T' : Forall2 (same_kind w w') T T' -> reads c = true -> Forall (fun i => i < length T) (api_handles c) ->
    ok_call w (rename_api (at_T T) c) -> ok_call w' (rename_api (at_T T') c).
  Proof.
    intros F Rd B K. pose proof (kinds_apart h) as Ap.
    destruct c; try discriminate Rd; cbn [api_handles rename_api ok_call] in *; inversion B as [|? ? Bi _]; subst;
      pose proof (nth_kind T T' _ F Bi) as Sk; unfold at_T in *; destruct K as [x K];
      match type of Sk with same_kind _ _ ?a _ => specialize (Ap a (reachable_Inv _ _ R)) end; fold w in Ap;
      destruct Sk as [d d' H H'|l l' H H'|i0 i' H H'|s s' H H' T0]; rewrite ?H, ?K in Ap; try (eexists; exact H');
      exfalso; repeat match type of Ap with context [match ?z with _ => _ end] => destruct z end; auto.
  Qed.
  (** If the replies read the same, the handles have the same kinds. *)
  Lemma reply_kinds c c' : reads c = true -> rename_api zero c = rename_api zero c' -> ok_call w c -> ok_call w' c' ->
    fst (rd w c) = fst (rd w' c') -> Forall2 (same_kind w w') (snd (rd w c)) (snd (rd w' c')).
  Proof.
    intros Rd Q K K' E. pose proof (reachable_Inv _ _ R) as I. pose proof (reachable_Inv _ _ R') as I'.
    destruct c; try discriminate Rd; destruct c'; try discriminate Q; cbn [ok_call] in *; destruct K as [x K], K' as [x' K'];
      unfold rd in *; cbn [spec_call fst out_reply snd] in *; unfold map_at, arr_at in *; rewrite ?K, ?K' in *; cbn [the] in *; try constructor; injection E as E.
    - apply ohs_kinds; auto; [eapply map_closed|eapply map_closed]; eauto.
    - apply ohs_kinds; auto; eapply arr_closed; eauto.
    - apply held_kinds; auto; eapply val_closed; eauto.
  Qed.
End Run.
