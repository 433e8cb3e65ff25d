(** * A state that represents a document *)
From Coq Require Import Ascii String List NArith ZArith Bool Lia.
From Verif Require Import GoStr GoNum GoFloat Heap Common ValueModel ArrayModel MapModel JsonModel
  SpecDict SpecNum SpecWorld Inv World Reach MapFacts SpecFloat SpecDoc SpecText SpecToken SpecRender SpecRound SpecUtf8 SpecJson
  RenderFacts NumLemmas ExampleState.
Import ListNotations.
Local Open Scope nat_scope.

(** ** Computing the document of an object *)
Fixpoint map_opt {A B} (f : A -> option B) (l : list A) : option (list B) :=
  match l with
  | [] => Some []
  | x :: t => match f x, map_opt f t with Some y, Some u => Some (y :: u) | _, _ => None end
  end.
Definition doc_of_value (rec : iface -> option doc) (w : world) (o : option nat) : option doc :=
  match o with
  | None => Some DNull
  | Some v => match w_val w v with Some i => rec i | None => None end
  end.
Definition plain_message (e : goerr) : option str := match e with Plain s => Some s | _ => None end.
Fixpoint doc_of (n : nat) (w : world) (i : iface) : option doc :=
  match n with
  | O => None
  | S n =>
      if nil_object i then Some DNull
      else match i with
           | IScal s => Some (DScal s)
           | IPtr t (Some p) =>
               match w_var w p with
               | Some s => if stype_eq (stype_of s) t then Some (DScal s) else None
               | None => None
               end
           | IErrs l | IPErrs (Some l) => option_map DTexts (map_opt plain_message l)
           | IStrs l | IPStrs (Some l) => Some (DTexts l)
           | IErr s | IPErr (Some (Plain s)) | IPErr (Some (Typed _ s)) => Some (DErr s)
           | IMap m | IPMap (Some m) =>
               match w_map w m with
               | Some d => option_map DMap (map_opt (fun ko => option_map (pair (fst ko)) (doc_of_value (doc_of n w) w (snd ko))) d)
               | None => None
               end
           | IArr a | IPArr (Some a) =>
               match w_arr w a with
               | Some l => option_map DArr (map_opt (doc_of_value (doc_of n w) w) l)
               | None => None
               end
           | _ => None
           end
  end.

Lemma doc_of_rep w n : forall i d, doc_of n w i = Some d -> rep_obj true w (fun _ => True) i d.
Proof.
  induction n as [|n IH]; intros i d E; [discriminate|]. cbn [doc_of] in E.
  destruct (nil_object i) eqn:N; [inversion E; now apply rep_nilptr|].
  assert (V : forall o e, doc_of_value (doc_of n w) w o = Some e -> rep_value true w (fun _ => True) o e).
  { intros [v|] e H; cbn in H; [|inversion H; now constructor]. destruct (w_val w v) eqn:Ev; [|discriminate]. econstructor; eauto. }
  assert (El : forall l ds, map_opt (doc_of_value (doc_of n w) w) l = Some ds -> rep_elems true w (fun _ => True) l ds).
  { induction l as [|o l IHl]; intros ds H; cbn in H; [inversion H; constructor|].
    destruct (doc_of_value _ _ o) eqn:A; [|discriminate]. destruct (map_opt _ l) eqn:B; [|discriminate]. inversion H; subst.
    constructor; auto. }
  assert (Me : forall l ds, map_opt (fun ko => option_map (pair (fst ko)) (doc_of_value (doc_of n w) w (snd ko))) l = Some ds ->
     rep_members true w (fun _ => True) l ds).
  { induction l as [|[k o] l IHl]; intros ds H; cbn in H; [inversion H; constructor|].
    destruct (doc_of_value _ _ o) eqn:A; [|discriminate]. cbn in H. destruct (map_opt _ l) eqn:B; [|discriminate]. inversion H; subst.
    constructor; auto. }
  assert (Er : forall l ts, map_opt plain_message l = Some ts -> l = map Plain ts).
  { induction l as [|e l IHl]; intros ts H; cbn in H; [inversion H; reflexivity|].
    destruct e as [|s|? s]; try discriminate. cbn in H. destruct (map_opt _ l) eqn:B; [|discriminate]. inversion H; subst.
    cbn. now rewrite <- (IHl _ eq_refl). }
  destruct i as [|s|t [p|]|m|[m|]|a|[a|]|v|[v|]|l|l|[l|]|[l|]|e|[[|e|? e]|]|q|b|[b|]|[q|]|q [d'|]]; try discriminate.
  - inversion E. constructor.
  - destruct (w_var w p) as [s|] eqn:Ep; [|discriminate]. destruct (stype_eq (stype_of s) t); [|discriminate]. inversion E.
    econstructor; eauto.
  - destruct (w_map w m) as [l|] eqn:Em; [|discriminate]. destruct (map_opt _ l) as [ds|] eqn:Q; [|discriminate].
    inversion E. eapply rep_map; eauto.
  - destruct (w_map w m) as [l|] eqn:Em; [|discriminate]. destruct (map_opt _ l) as [ds|] eqn:Q; [|discriminate].
    inversion E. eapply rep_map; eauto.
  - destruct (w_arr w a) as [l|] eqn:Em; [|discriminate]. destruct (map_opt _ l) as [ds|] eqn:Q; [|discriminate].
    inversion E. eapply rep_arr; eauto.
  - destruct (w_arr w a) as [l|] eqn:Em; [|discriminate]. destruct (map_opt _ l) as [ds|] eqn:Q; [|discriminate].
    inversion E. eapply rep_arr; eauto.
  - destruct (map_opt plain_message l) eqn:B; [|discriminate]. inversion E. rewrite (Er _ _ B). constructor.
  - inversion E. constructor.
  - destruct (map_opt plain_message l) eqn:B; [|discriminate]. inversion E. rewrite (Er _ _ B). constructor.
  - inversion E. constructor.
  - inversion E. constructor.
  - inversion E. constructor. now left.
  - inversion E. constructor. right. eauto.
Qed.

(** ** The state *)
Definition json_calls : list api :=
  [ ANewMap;                                                          (* 1 *)
    AMapSet 1 (lit "s") (IScal (SStr (lit "say ""hi"" \o/")));        (* 2 *)
    AMapSetScalarValue 1 (lit "n") (SInt KInt64 (-70000));            (* 3 4 *)
    ANewArray;                                                        (* 5 *)
    AArrAppend 5 (IScal (SFlt F32 (FFin false 12582912 (-23))));      (* 6: 1.5 *)
    AArrAppend 5 INil;                                                (* 7 *)
    AArrAppendValue 5 None;
    AMapSet 1 (lit "a") (IPArr (Some 5));                             (* 8 *)
    ANewMap;                                                          (* 10 *)
    AMapSet 10 (lit "e") (IErrs [Plain (lit "x"); Plain (lit "y""z")]);             (* 11 *)
    AMapSet 10 (lit "p""") (IPtr TyStr None);                         (* 12 *)
    AMapSet 1 (lit "m") (IMap 10);                                    (* 13 *)
    AMapSet 1 (lit "again") (IMap 10);                                (* 14 *)
    AMapSet 1 (lit "b") (IScal (SBool true)) ].                       (* 15 *)
Definition json_state : heap := match run_calls json_calls [] with Ok (_, h) => h | _ => [] end.
Definition json_doc : doc :=
  let sub := DMap [(lit "e", DTexts [lit "x"; lit "y""z"]); (lit "p""", DNull)] in
  DMap [(lit "s", DScal (SStr (lit "say ""hi"" \o/"))); (lit "n", DScal (SInt KInt64 (-70000)));
        (lit "a", DArr [DScal (SFlt F32 (FFin false 12582912 (-23))); DNull; DNull]);
        (lit "m", sub); (lit "again", sub); (lit "b", DScal (SBool true))].

Lemma json_reachable X : reachable X json_state.
Proof.
  assert (E : exists os, run_calls json_calls [] = Ok (os, json_state)) by (eexists; vm_compute; reflexivity).
  destruct E as [os E]. refine (reachable_run_calls X json_calls [] os json_state (R_start X) _ E).
  apply ok_callsb_ok. vm_compute. reflexivity.
Qed.
Lemma json_rep : rep_obj true (view json_state) (fun _ => True) (IMap 1) json_doc.
Proof. apply (doc_of_rep _ 9). vm_compute. reflexivity. Qed.

(** ** Deciding the side conditions *)
Definition fitsb (is64 : bool) (k : ikind) (z : Z) : bool :=
  match k with
  | KInt | KInt8 | KInt16 | KInt32 | KInt64 => (- 2 ^ (width is64 k - 1) <=? z)%Z && (z <? 2 ^ (width is64 k - 1))%Z
  | _ => (0 <=? z)%Z && (z <? 2 ^ width is64 k)%Z
  end.
Definition normalb (k : fkind) (m e : Z) : bool :=
  ((0 <=? m) && (m <? 2 ^ prec k) && (emin k <=? e) && (e <=? emax k) && ((2 ^ (prec k - 1) <=? m) || (e =? emin k)))%Z.
Fixpoint properb (is64 : bool) (d : doc) : bool :=
  match d with
  | DNull | DErr _ | DTexts _ => true
  | DScal (SInt k z) => fitsb is64 k z
  | DScal (SFlt k (FFin _ m e)) => normalb k m e
  | DScal _ => true
  | DArr l => forallb (properb is64) l
  | DMap l => forallb (fun kd => properb is64 (snd kd)) l
  end.
Definition safeb (s : str) : bool :=
  forallb (fun c => (N_of_ascii c <? 128)%N) s && negb (Ascii.eqb (last s c_nl) c_bs).
Fixpoint writableb (d : doc) : bool :=
  match d with
  | DNull => true
  | DScal (SStr t) => safeb t
  | DScal (SFlt _ (FInf _)) | DScal (SFlt _ FNaN) => false
  | DScal _ => true
  | DErr t => safeb t
  | DTexts l => forallb safeb l
  | DArr l => forallb writableb l
  | DMap l => forallb (fun kd => safeb (fst kd)
      && (match snd kd with DArr _ | DMap _ | DTexts _ => negb (existsb (Ascii.eqb c_dq) (fst kd)) | _ => true end)
      && writableb (snd kd)) l
  end.
Fixpoint no_float64b (d : doc) : bool :=
  match d with
  | DScal (SFlt F64 _) => false
  | DNull | DScal _ | DErr _ | DTexts _ => true
  | DArr l => forallb no_float64b l
  | DMap l => forallb (fun kd => no_float64b (snd kd)) l
  end.

Lemma fitsb_ok is64 k z : fitsb is64 k z = true -> fits is64 k z.
Proof.
  unfold fitsb, fits, is_signed. intros H.
  destruct k; rewrite andb_true_iff, Z.leb_le, Z.ltb_lt in H;
    first [left; split; [intuition congruence|lia] | right; split; [intuition congruence|lia]].
Qed.
Lemma normalb_ok k m e : normalb k m e = true -> normal_form k m e.
Proof.
  unfold normalb, normal_form, in_format. rewrite !andb_true_iff, orb_true_iff, !Z.leb_le, Z.ltb_lt, Z.eqb_eq. tauto.
Qed.
Lemma properb_ok is64 d : properb is64 d = true -> proper is64 d.
Proof.
  induction d as [|s|y|l|l IH|l IH] using doc_ind'; intros H.
  - constructor.
  - constructor. destruct s as [|?|k z|k [neg m e|?|]]; cbn in *; auto using fitsb_ok, normalb_ok.
  - constructor.
  - constructor.
  - constructor. cbn in H. rewrite forallb_forall in H. rewrite Forall_forall in *. auto.
  - constructor. cbn in H. rewrite forallb_forall in H. rewrite Forall_forall in *. auto.
Qed.
Lemma safeb_ok s : safeb s = true -> safe s.
Proof.
  unfold safeb, safe. rewrite andb_true_iff, negb_true_iff, forallb_forall. intros [A B]. split.
  - apply Forall_forall. intros c Hc. apply N.ltb_lt. auto.
  - intros u ->. rewrite last_last in B. discriminate.
Qed.
Lemma writableb_ok d : writableb d = true -> writable d.
Proof.
  induction d as [|s|y|l|l IH|l IH] using doc_ind'; intros H.
  - constructor.
  - destruct s as [t|?|k z|k [neg m e|?|]]; cbn in *; try discriminate; try (apply wr_scal; [exact I|discriminate]).
    apply wr_str. now apply safeb_ok.
  - constructor. now apply safeb_ok.
  - constructor. cbn in H. rewrite forallb_forall in H. apply Forall_forall. auto using safeb_ok.
  - constructor. cbn in H. rewrite forallb_forall in H. rewrite Forall_forall in *. auto.
  - constructor. cbn in H. rewrite forallb_forall in H. rewrite Forall_forall in *. intros [k d] Hx.
    specialize (H _ Hx). rewrite !andb_true_iff in H. destruct H as [[A B] C]. split; [now apply safeb_ok|]. split; [|now apply (IH _ Hx)].
    cbn [fst snd] in *. intros K Q. destruct d; try contradiction;
      apply negb_true_iff in B; rewrite <- not_true_iff_false in B; apply B; apply existsb_exists; exists c_dq; auto.
Qed.
Lemma no_float64b_ok d : no_float64b d = true -> no_float64 d.
Proof.
  induction d as [|s|y|l|l IH|l IH] using doc_ind'; intros H.
  - constructor.
  - constructor. intros f ->. discriminate.
  - constructor.
  - constructor.
  - constructor. cbn in H. rewrite forallb_forall in H. rewrite Forall_forall in *. auto.
  - constructor. cbn in H. rewrite forallb_forall in H. rewrite Forall_forall in *. auto.
Qed.

Lemma json_proper : proper true json_doc.
Proof. apply properb_ok. vm_compute. reflexivity. Qed.
Lemma json_writable : writable json_doc.
Proof. apply writableb_ok. vm_compute. reflexivity. Qed.
Lemma json_no_float64 : no_float64 json_doc.
Proof. apply no_float64b_ok. vm_compute. reflexivity. Qed.
