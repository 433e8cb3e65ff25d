(** * As many texts as errors *)
From Coq Require Import Ascii String List NArith ZArith Bool Lia.
From Verif Require Import GoStr GoNum GoFloat Heap Common ValueModel ArrayModel MapModel JsonModel ParserModel GetterModel NamedModel
  PtrModel PtrListModel RunesModel TimeModel SpecDict SpecWorld Inv World Reach SpecAlike SpecPanic PanicFacts
  MessageModel SpecMessage MessageFacts MessageTop SaysModel SaysLists SaysAll SaysAgree SaysMapLists SaysTop ToldModel ToldFacts ToldTop
  SpecPtrList PtrListFacts ClientModel TextModel.
Import ListNotations.

Section Count.
  Context (Q E : str -> str) (T : option Z -> time_arg -> list str) (X : ext) (L : timelib).
  Context (Tn : forall p a e, time_reader L p a = Ok (GErr e) -> length (T p a) = length e).
  Context (h : heap) (R : reachable X h).
  Let I := reachable_Inv _ _ R.

  Definition fits (n : nat) (x : res (list str)) : Prop := exists ms, x = Ok ms /\ length ms = n.

  Lemma fits_rmap n x : rmap (@length str) x = Ok n -> fits n x.
  Proof. destruct x as [ms| | |]; try discriminate. cbn. intros H. injection H as H. exists ms. auto. Qed.
  Lemma fits_errs {A} (r : gres A) x y : rmap (@length str) x = rmap (@length err) y -> y = Ok (errs_of r) -> fits (errors r) x.
  Proof. intros A1 ->. apply fits_rmap. rewrite A1. destruct r; reflexivity. Qed.

  Lemma map_there m mo : rd_map h m = Ok mo -> has (w_map (view h)) m.
  Proof.
    intros H. apply rd_map_iff in H. destruct (inv_map _ I _ _ H) as [d Hd]. exists d.
    apply (im_map _ _ (view_impl h I)). exists mo. auto.
  Qed.
  Lemma via_there {A} (z : A) get m k r : map_via z get h m k = Ok r -> has (w_map (view h)) m.
  Proof.
    unfold map_via, map_IsNull. destruct (rd_map h m) eqn:Em; try discriminate. intros _. eapply map_there; eauto.
  Qed.
  Lemma get_there m k r : map_GetValue h m k = Ok r -> has (w_map (view h)) m.
  Proof. unfold map_GetValue. destruct (rd_map h m) eqn:Em; try discriminate. intros _. eapply map_there; eauto. Qed.

  Lemma bind_ok {A B} (x : res A) (f : A -> res B) b : rbind x f = Ok b -> exists a, x = Ok a /\ f a = Ok b.
  Proof. destruct x; try discriminate. cbn. eauto. Qed.
  Lemma rmap_ok {A B} (f : A -> B) x b : rmap f x = Ok b -> exists a, x = Ok a /\ b = f a.
  Proof. destruct x; try discriminate. cbn. intros [= <-]. eauto. Qed.

  (** ** Getters *)
  Lemma map_errs_there g m k e : map_errs X h g m k = Ok e -> has (w_map (view h)) m.
  Proof.
    destruct g as [kd|kd|kd|kd| | | | | | | | | | |]; try destruct kd; cbn [map_errs]; try discriminate;
      intros H; apply rmap_ok in H as (r & H & _);
      try (eapply via_there; exact H);
      try (unfold map_GetMap, map_GetMapValue in H; apply bind_ok in H as (x & H & _); eapply get_there; exact H).
    unfold map_GetArrayValue in H. apply bind_ok in H as (x & H & _). eapply via_there; exact H.
  Qed.
  Lemma map_fits g m k {A} (r : gres A) : map_errs X h g m k = Ok (errs_of r) -> fits (errors r) (map_says Q X h g m k).
  Proof. intros H. eapply fits_errs; [|exact H]. apply map_agree; [exact I|]. eapply map_errs_there; exact H. Qed.

  Lemma value_errs_there g v e : value_errs X h g v = Ok e -> exists i, nth_error h v = Some (CVal i).
  Proof.
    destruct (rd_val h v) as [i| | |] eqn:Ev; [exists i; now apply rd_val_iff| | |];
      (destruct g as [kd|kd|kd|kd| | | | | | | | | | |]; try destruct kd; cbn [value_errs];
       unfold value_GetIntKindValue, value_GetIntKind, value_GetInt, value_GetInt8, value_GetInt16, value_GetInt32, value_GetUInt8, value_GetUInt16,
         value_GetUInt32, value_GetFloat64Value, value_GetFloat32Value, value_GetFloat32, value_GetString_content, value_GetStringValue,
         value_GetBool_content, value_GetBoolValue, value_GetArrayValue, value_GetMapValue, value_GetMap, value_GetArray, value_GetErrors, value_GetFunc, value_GetRunes,
         value_GetString, value_GetBool, value_GetInt64, value_GetUInt64, value_GetFloat64;
       rewrite ?Ev; cbn; try discriminate; destruct (x_is64 X); rewrite ?Ev; cbn; discriminate).
  Qed.
  Lemma value_fits g v {A} (r : gres A) : value_errs X h g v = Ok (errs_of r) -> fits (errors r) (value_says Q X h g v).
  Proof. intros H. destruct (value_errs_there _ _ _ H) as [i V]. eapply fits_errs; [|exact H]. now apply (value_agree Q X h I g v i). Qed.

  (** ** Lists *)
  Lemma collect_there {A} (get : loc -> res (gres (option A))) a r : arr_collect_ptr get h a = Ok r -> exists l, rd_arr h a = Ok l.
  Proof. unfold arr_collect_ptr. destruct (rd_arr h a); try discriminate. eauto. Qed.
  Lemma collectv_there {A} (get : loc -> res (gres A)) a r : arr_collect_val get h a = Ok r -> exists l, rd_arr h a = Ok l.
  Proof. unfold arr_collect_val. destruct (rd_arr h a); try discriminate. eauto. Qed.
  Lemma array_errs_there g a e : array_of_errs X h g a = Ok e -> exists l, rd_arr h a = Ok l.
  Proof.
    destruct g as [kd|kd|kd|kd| | | | | | | | | | |]; try destruct kd; cbn [array_of_errs]; try discriminate;
      intros H; apply rmap_ok in H as (r & H & _); first [eapply collect_there; exact H | eapply collectv_there; exact H].
  Qed.
  Lemma array_fits g a {A} (r : gres A) : array_of_errs X h g a = Ok (errs_of r) -> fits (errors r) (array_of_says Q X h g a).
  Proof. intros H. destruct (array_errs_there _ _ _ H) as [l El]. eapply fits_errs; [|exact H]. eapply array_agree; [exact I | exact El]. Qed.

  Lemma map_list_there g m k e : map_list_errs X h g m k = Ok e -> has (w_map (view h)) m.
  Proof.
    destruct g as [kd|kd|kd|kd| | | | | | | | | | |]; try destruct kd; cbn [map_list_errs]; try discriminate;
      intros H; apply rmap_ok in H as (r & H & _); unfold map_array_of, map_array_of_value, map_GetArrayValue in H;
      apply bind_ok in H as (x & H & _); first [eapply via_there; exact H | apply bind_ok in H as (y & H & _); eapply via_there; exact H].
  Qed.
  Lemma map_list_fits g m k {A} (r : gres A) : map_list_errs X h g m k = Ok (errs_of r) -> fits (errors r) (map_list_says Q X h g m k).
  Proof. intros H. eapply fits_errs; [|exact H]. apply map_list_agree; [exact I|]. eapply map_list_there; exact H. Qed.

  (** ** Pointers *)
  Lemma value_ptr_errs t v r h1 i : nth_error h v = Some (CVal i) -> value_ptr t X v h = Ok (r, h1) ->
    value_errs X h (asked_of t) v = Ok (errs_of r).
  Proof.
    intros V H. rewrite (value_ptr_outcome X t h v i I V) in H. unfold outcome in H. apply bind_ok in H as (g & Hg & H).
    assert (Er : errs_of r = errs_of g).
    { destruct g as [[s|]|e]; [destruct (stored t i)| |]; injection H as <- _; reflexivity. }
    rewrite Er. destruct t as [| |kd|[]]; cbn [value_scalar asked_of value_errs] in *; apply rmap_ok in Hg as (x & -> & ->); destruct x; reflexivity.
  Qed.
  Lemma value_ptr_there t v r h1 : value_ptr t X v h = Ok (r, h1) -> exists i, nth_error h v = Some (CVal i).
  Proof.
    destruct (rd_val h v) as [i| | |] eqn:Ev; [exists i; now apply rd_val_iff| | |];
      (destruct t as [| |kd|[]]; try destruct kd; cbn [value_ptr];
       unfold in_new, value_GetIntKind, value_GetInt, value_GetInt8, value_GetInt16, value_GetInt32, value_GetUInt8, value_GetUInt16,
         value_GetUInt32, value_GetFloat32, value_GetString, value_GetBool, value_GetInt64, value_GetUInt64, value_GetFloat64;
       rewrite ?Ev; cbn; try discriminate; destruct (x_is64 X); rewrite ?Ev; cbn; discriminate).
  Qed.
  Lemma map_ptr_errs t m k r h1 : map_ptr t X m k h = Ok (r, h1) -> map_errs X h (asked_of t) m k = Ok (errs_of r).
  Proof.
    intros H.
    assert (V : map_via (GVal None, h) (fun v => value_ptr t X v h) h m k = Ok (r, h1)) by (destruct t as [| |[]|]; try discriminate H; exact H).
    assert (W : forall A (get : loc -> res (gres (option A))),
      (forall v, rmap errs_of (get v) = value_errs X h (asked_of t) v) -> rmap errs_of (map_via (GVal None) get h m k) = Ok (errs_of r)).
    { intros A get G. unfold map_via in *. destruct (map_IsNull h m k) as [b| | |]; try discriminate V. cbn [rbind] in *.
      destruct b; [injection V as <- _; reflexivity|]. destruct (map_GetValue h m k) as [[v|]| | |]; try discriminate V. cbn [rbind] in *.
      rewrite G. destruct (value_ptr_there _ _ _ _ V) as [i Vi]. eapply value_ptr_errs; eauto. }
    destruct t as [| |kd|[]]; cbn [asked_of map_errs]; try (apply W; reflexivity).
    destruct kd; try discriminate H; apply W; reflexivity.
  Qed.
  Lemma collect_ptrs_errs t l ps es h1 : Forall (fun o => forall w, o = Some w -> exists j, nth_error h w = Some (CVal j)) l ->
    collect_ptrs t X l h = Ok ((ps, es), h1) -> exists cs, collect_ptr (value_scalar X t h) l = Ok (cs, es).
  Proof.
    intros F H. assert (Hl : forall v, In (Some v) l -> exists i, nth_error h v = Some (CVal i)).
    { intros v Hv. rewrite Forall_forall in F. exact (F _ Hv v eq_refl). }
    pose proof (collect_hands X t h l R Hl []) as C. rewrite more_nil in C.
    destruct (collect_ptr (value_scalar X t h) l) as [[cs es']| | |]; try congruence.
    destruct C as (ps' & vs & E' & _). rewrite E' in H. injection H as _ <- _. eauto.
  Qed.
  Lemma arr_ptrs_errs t a r h1 : arr_ptrs t X a h = Ok (r, h1) -> array_of_errs X h (asked_of t) a = Ok (errs_of r).
  Proof.
    intros H. destruct (assigned_dec t) as [As|N]; [|rewrite (arr_ptrs_unassigned X t h a N) in H; discriminate].
    assert (El : exists l, rd_arr h a = Ok l).
    { destruct t as [| |[]|]; try discriminate H; unfold arr_ptrs, bind, mlift in H; destruct (rd_arr h a); try discriminate H; eauto. }
    destruct El as [l El]. pose proof (proj1 (rd_arr_iff _ _ _) El) as Ca.
    rewrite (arr_ptrs_collect X t h a l As Ca) in H. apply bind_ok in H as ([[ps es] h2] & H & Er). injection Er as <- _.
    destruct (collect_ptrs_errs t l ps es h2 (arr_vals h I a l El) H) as [cs Ec].
    pose proof (listed_collect X t h a l As Ca) as Li. rewrite Ec in Li. cbn [rmap rbind] in Li.
    assert (Z : forall A (mk : A -> scalar) x, as_scalars mk x = Ok (finish (cs, es)) -> rmap errs_of x = Ok (errs_of (finish (ps, es)))).
    { intros A mk x Hx. unfold as_scalars in Hx. destruct x as [[y|e]| | |]; cbn in *; try discriminate; injection Hx as Hx; destruct es; cbn in *; try discriminate; injection Hx as Hx; subst; reflexivity. }
    destruct t as [| |kd|[]]; cbn [asked_of array_of_errs listed] in *; eapply Z; exact Li.
  Qed.
  Lemma map_ptrs_errs t m k r h1 : map_ptrs t X m k h = Ok (r, h1) -> map_list_errs X h (asked_of t) m k = Ok (errs_of r).
  Proof.
    intros H.
    assert (W : forall A (get : heap -> loc -> res (gres (list A))),
      (forall a, rmap errs_of (get h a) = array_of_errs X h (asked_of t) a) -> rmap errs_of (map_array_of get X h m k) = Ok (errs_of r)).
    { intros A get G.
      assert (H2 : (q <-r map_GetArray X h m k ;; match q with GErr e => Ok (GErr e, h) | GVal None => Ok (GVal None, h)
          | GVal (Some a) => z <-r arr_ptrs t X a h ;; Ok (match fst z with GVal l => GVal (Some l) | GErr e => GErr e end, snd z) end) = Ok (r, h1)).
      { rewrite <- H. destruct t as [| |[]|]; try discriminate H; unfold map_ptrs, bind, mlift;
          (destruct (map_GetArray X h m k) as [[[a|]|e]| | |]; try reflexivity; cbn [rbind];
           match goal with |- context [arr_ptrs ?t X a h] => destruct (arr_ptrs t X a h) as [[z h2]| | |]; reflexivity end). }
      unfold map_array_of. apply bind_ok in H2 as (q & Eq & H2). rewrite Eq. cbn [rbind].
      destruct q as [[a|]|e]; [|injection H2 as <- _; reflexivity|injection H2 as <- _; reflexivity].
      apply bind_ok in H2 as ([z h2] & Ez & H2). injection H2 as <- _. apply arr_ptrs_errs in Ez. rewrite <- G in Ez.
      destruct (get h a) as [y| | |]; try discriminate Ez. cbn in *. injection Ez as Ez. destruct y, z; cbn in *; congruence. }
    destruct t as [| |kd|[]]; cbn [asked_of map_list_errs]; try (apply W; reflexivity).
    destruct kd; try discriminate H; apply W; reflexivity.
  Qed.

  (** ** Elements, texts, Parse and times *)
  Lemma elem_there {A} a n (get : loc -> res (gres A)) r : arr_elem h a n get = Ok r -> exists l, rd_arr h a = Ok l.
  Proof. unfold arr_elem. destruct (rd_arr h a); try discriminate. eauto. Qed.
  Lemma string_fits i r : conv_string X h i = Ok r -> fits (errors r) (convert_string_says X h i).
  Proof.
    intros H. unfold convert_string_says. rewrite H.
    assert (V : exists tv, match i with IVal v | IPVal (Some v) => rd_val h v | _ => Ok i end = Ok tv).
    { destruct i; try (eexists; reflexivity);
        try match goal with o : option loc |- _ => destruct o end; try (eexists; reflexivity);
        unfold conv_string in H; cbn [common_IsNil] in H; apply bind_ok in H as (tv & H & _); eauto. }
    destruct V as [tv ->]. cbn [rbind]. destruct r as [s|e]; [exists []; auto|].
    exists [conv_text X tv]. split; auto. cbn [errors]. symmetry. eapply conv_one; exact H.
  Qed.
  Lemma count_fits {A} (p : A -> nat) x y r : rmap (@length str) x = rmap p y -> y = Ok r -> fits (p r) x.
  Proof. intros A1 ->. apply fits_rmap. exact A1. Qed.
  Lemma parse_fits s r h1 : Parse X s h = Ok (r, h1) -> fits (errors r) (q <-r Parse_says X s h ;; Ok (snd (fst q))).
  Proof.
    intros H. assert (P : panics_on s = false).
    { destruct (panics_on s) eqn:P; auto. apply (parse_panics_iff X h s R) in P. congruence. }
    destruct (messages_model X h s R P) as (r' & h' & o & E1 & -> & A). rewrite E1 in H. injection H as -> ->.
    cbn. eexists. split; [reflexivity|]. unfold same_answer in A. destruct r as [o'|e].
    - destruct A as [_ ->]. reflexivity.
    - destruct A as [_ A]. cbn [errors]. clear - A. induction A; cbn; congruence.
  Qed.
  Lemma time_fits p v r : value_time (time_reader L p) X h v = Ok r -> fits (errors r) (value_time_says T X L p h v).
  Proof.
    unfold value_time, value_time_says. destruct (rd_val h v) as [i| | |]; try discriminate. cbn [rbind].
    destruct (iface_IsNil X i); [intros H; injection H as <-; exists []; auto|]. unfold time_says. intros H. apply bind_ok in H as (a & -> & H).
    cbn [rbind]. rewrite H. cbn [rbind]. destruct r as [o|e]; [exists []; auto|]. eexists. split; [reflexivity|]. now apply Tn.
  Qed.
  Lemma timev_fits v r : value_GetTimeValue L h v = Ok r -> fits (errors r) (value_timev_says T L h v).
  Proof.
    unfold value_GetTimeValue, value_timev_says. destruct (rd_val h v) as [i| | |]; try discriminate. cbn [rbind].
    unfold time_says. intros H. apply bind_ok in H as (a & -> & H). apply bind_ok in H as (q & Eq & H).
    cbn [rbind time_reader]. rewrite Eq. cbn [rbind]. destruct q as [[o|]|e]; injection H as <-; [exists []; auto|exists []; auto|].
    eexists. split; [reflexivity|]. cbn [errors]. now apply Tn.
  Qed.

  Lemma ret_ok {A B} (x : M A) (f : A -> M B) r h1 : bind x f h = Ok (r, h1) -> exists a h2, x h = Ok (a, h2) /\ f a h2 = Ok (r, h1).
  Proof. unfold bind. destruct (x h) as [[a h2]| | |]; try discriminate. eauto. Qed.
  Lemma lift_ok {A} (x : heap -> res A) a h2 : mlift x h = Ok (a, h2) -> x h = Ok a.
  Proof. unfold mlift. destruct (x h); try discriminate. cbn. congruence. Qed.
  Lemma flagged x b : (exists ms, x = Ok ms /\ length ms <= 1) -> (b = false <-> x = Ok []) -> fits (if b then 1 else 0) x.
  Proof.
    intros ([|s [|s' ms]] & -> & Hl) Hb; cbn in Hl; [| |lia].
    - rewrite (proj2 Hb eq_refl). exists []. auto.
    - destruct b; [exists [s]; auto|]. pose proof (proj1 Hb eq_refl). discriminate.
  Qed.
  Lemma some_flag {A} (o : option A) : match o with Some _ => true | None => false end = false <-> o = None.
  Proof. destruct o; split; congruence. Qed.

  Lemma index_fits a l n (e : option err) : rd_arr h a = Ok l -> (e = None <-> at_index_says h a n = Ok []) ->
    fits (if match e with Some _ => true | None => false end then 1 else 0) (at_index_says h a n).
  Proof.
    intros El K. apply flagged; [|rewrite some_flag; exact K]. unfold at_index_says. rewrite El. cbn [rbind]. eexists. split; [reflexivity|].
    destruct (_ <? _)%Z; [auto|]. destruct (_ <? _)%Z; auto.
  Qed.

  (** Each error has a text. *)
  Lemma texts_count q r h1 : ask X L q h = Ok (r, h1) -> (forall n k l, q <> QClone n k l) -> fits (errors_in (fst r)) (texts_of Q E T X L q h).
  Proof.
    intros H N. destruct q; cbn [ask] in H; apply ret_ok in H as (a0 & h2 & H & Er); injection Er as <- _;
      try (apply lift_ok in H); cbn [texts_of].
    - destruct c; cbn [run_call] in H; apply ret_ok in H as (a1 & h3 & H & Er);
        try (injection Er as <- _; exists []; split; [reflexivity|]; reflexivity).
      + injection Er as <- _. cbn [out_reply fst errors_in].
        assert (Hm : has (w_map (view h)) m).
        { unfold map_RemoveKey in H. destruct (rd_map h m) eqn:Em; try discriminate. eapply map_there; eauto. }
        destruct (remove_key_agree h I m k Hm) as (b & e & h' & Eq & K). rewrite Eq in H. injection H as <- _. cbn [fst snd].
        match goal with |- fits _ ?x => apply (flagged x (match e with Some _ => true | None => false end)) end.
        * apply has_map with (1 := view_impl h I) in Hm. destruct Hm as (mo & Hm & _). unfold remove_key_says.
          rewrite (proj2 (rd_map_iff _ _ _) Hm). cbn [rbind]. eexists. split; [reflexivity|].
          destruct (negb _); [auto|]. destruct (find_index _ _); auto.
        * rewrite some_flag. exact K.
      + unfold bind, mlift in Er. destruct (arr_GetValues h3 a1); try discriminate Er. injection Er as <- _. exists []. auto.
      + injection Er as <- _.
        assert (El : exists l, rd_arr h a = Ok l) by (unfold arr_SetValueAtIndex in H; destruct (rd_arr h a); try discriminate; eauto).
        destruct El as [l El]. destruct (set_at_agree h a l n o El) as (e & h' & Eq & K). rewrite Eq in H. injection H as <- _.
        pose proof (index_fits a l n e El K) as F. destruct e; exact F.
      + injection Er as <- _.
        assert (El : exists l, rd_arr h a = Ok l) by (unfold arr_RemoveValueAtIndex in H; destruct (rd_arr h a); try discriminate; eauto).
        destruct El as [l El]. destruct (remove_at_agree h a l n El) as (e & h' & Eq & K). rewrite Eq in H. injection H as <- _.
        pose proof (index_fits a l n e El K) as F. destruct e; exact F.
    - destruct g; cbn [run_getter] in H; apply rmap_ok in H as (r & H & ->); cbn [asked_of_getter says_if];
        try (exists []; split; reflexivity);
        apply map_fits; cbn [map_errs]; try match goal with k : ikind |- _ => destruct k end; try discriminate H; cbn [map_errs]; rewrite ?H; try reflexivity; destruct r as [[]|]; reflexivity.
    - destruct g; cbn [run_vgetter] in H; apply rmap_ok in H as (r & H & ->); cbn [asked_of_vgetter says_if];
        try (exists []; split; reflexivity);
        apply value_fits; cbn [value_errs]; try match goal with k : ikind |- _ => destruct k end; try discriminate H; cbn [value_errs]; rewrite ?H; try reflexivity; destruct r as [[]|]; reflexivity.
    - apply map_ptr_errs in H. apply (map_fits _ _ _ a0) in H. destruct a0; exact H.
    - destruct (value_ptr_there _ _ _ _ H) as [i V]. pose proof (value_ptr_errs _ _ _ _ _ V H) as H'. apply (value_fits _ _ a0) in H'. destruct a0; exact H'.
    - apply arr_ptrs_errs in H. apply (array_fits _ _ a0) in H. destruct a0; exact H.
    - apply map_ptrs_errs in H. apply (map_list_fits _ _ _ a0) in H. destruct a0 as [[]|]; exact H.
    - destruct g; cbn [run_lgetter] in H; apply rmap_ok in H as (r & H & ->); cbn [asked_of_lgetter fst errors_in];
        apply array_fits; cbn [array_of_errs]; try destruct k; cbn [array_of_errs]; rewrite ?H; try reflexivity; try discriminate H.
    - destruct g; cbn [run_mgetter] in H; apply rmap_ok in H as (r & H & ->); cbn [asked_of_mgetter fst errors_in];
        apply map_list_fits; cbn [map_list_errs]; rewrite ?H; reflexivity.
    - apply value_fits. cbn [value_errs]. now rewrite H.
    - apply map_fits. cbn [map_errs]. now rewrite H.
    - destruct (elem_there _ _ _ _ H) as [l El]. eapply fits_errs; [exact (string_at_agree Q X h I a l n El)|]. now rewrite H.
    - pose proof H as H'. unfold arr_GetMap in H'. apply bind_ok in H' as (z & H' & _). destruct (elem_there _ _ _ _ H') as [l El].
      assert (F : fits (errors a0) (arr_map_says X h a n)) by (eapply fits_errs; [exact (map_at_agree Q X h I a l n El)|]; now rewrite H).
      destruct a0; exact F.
    - exists []. auto.
    - exists []. auto.
    - exists []. auto.
    - apply string_fits. exact H.
    - eapply (count_fits (fun r => length (snd r))); [exact (proj1 (written_count E X _ h _ 0 _))|exact H].
    - eapply (count_fits (fun r => length (snd r))); [exact (proj2 (written_count E X _ h 0 _ _))|exact H].
    - eapply (count_fits (fun r => length (snd r))); [exact (conv_count E X h _ _)|exact H].
    - edestruct N; reflexivity.
    - pose proof (parse_fits _ _ _ H) as F. destruct a0; exact F.
    - exists []. auto.
    - exists []. auto.
    - apply time_fits. exact H.
    - apply timev_fits. exact H.
    - cbn [fst errors_in]. unfold map_via in *. destruct (map_IsNull h m k) as [[]| | |]; try discriminate H; cbn [rbind] in *;
        [injection H as <-; exists []; auto|].
      destruct (map_GetValue h m k) as [[v|]| | |]; try discriminate H. cbn [rbind] in *. apply time_fits. exact H.
  Qed.
End Count.
