(** * The texts of the getters' errors: the other getters (proofs for C80) *)
From Coq Require Import Ascii String List NArith ZArith Bool Lia.
From Verif Require Import GoStr StrLemmas GoNum GoFloat NumLemmas Heap Common ValueModel ArrayModel MapModel RunesModel GetterModel
  MessageModel SpecDict SpecNum SpecWorld Inv World Reach MapFacts GetterFacts SpecDoc SpecRender ShowFacts SpecString IndexFacts
  SpecMessage MessageFacts SpecNamed SaysModel SpecSays SaysFacts SaysInts.
Import ListNotations.
Local Open Scope Z_scope.

Lemma map_dec i : is_map i \/ ~ is_map i.
Proof. unfold is_map. cases_iface i; try (left; eauto; fail); right; intros [m0 [E|E]]; discriminate E. Qed.
Lemma array_dec i : is_array i \/ ~ is_array i.
Proof. unfold is_array. cases_iface i; try (left; eauto; fail); right; intros [m0 [E|E]]; discriminate E. Qed.
Lemma func_dec i : is_func i \/ ~ is_func i.
Proof. unfold is_func. cases_iface i; try (left; eauto; fail); right; intros [m0 [E|E]]; discriminate E. Qed.
Lemma errors_dec i : is_error_list i \/ ~ is_error_list i.
Proof.
  unfold is_error_list. cases_iface i; try (left; eauto; fail); right; intros [[m0 [E|E]]|[m0 [E|E]]]; discriminate E.
Qed.

Section S.
  Context (Q : str -> str) (X : ext) (h : heap) (v : loc) (i : iface).
  Context (V : nth_error h v = Some (CVal i)) (O : ok_iface h i).

  Ltac enter := rewrite (rdv _ _ _ V); cbn [rbind]; rewrite isnil.
  Ltac other S := let S' := fresh in intros; intros S'; pose proof (stands_fun _ _ _ _ S S'); discriminate.

  (** ** Floats *)
  Definition gives_f (r : gres (option flt)) (ms : list str) : Prop :=
    value_GetFloat64 X h v = Ok r /\ float64_says X h v = Ok ms.
  Inductive f_case : gres (option flt) -> list str -> Prop :=
  | fc_nil : counts_as_nil X i -> f_case (GVal None) []
  | fc_num f : ~ counts_as_nil X i -> float_of h i f -> f_case (GVal (Some f)) []
  | fc_text t : ~ counts_as_nil X i -> stands_for h i (SStr t) -> parse_float F64 t = None ->
      f_case (GErr [EConv]) [lit "error: Value.GetFloat64: cannot convert *string value to float64"]
  | fc_type : ~ counts_as_nil X i -> (forall k' f, ~ stands_for h i (SFlt k' f)) -> (forall k' z, ~ stands_for h i (SInt k' z)) ->
      (forall t, ~ stands_for h i (SStr t)) ->
      f_case (GErr [EType]) [unsupported X (lit "Value.GetFloat64") i (lit " for attribute: %!s(MISSING)")].
  Lemma f_total : exists r ms, gives_f r ms /\ f_case r ms.
  Proof.
    unfold gives_f, value_GetFloat64, float64_says. enter.
    destruct (unset X i) eqn:N; [do 2 eexists; split; [split; reflexivity|now apply fc_nil]|].
    pose proof (proj2 (set_iff X i) N) as NN.
    destruct (scalar_or_not X h i O N) as [(s & S & De)|[NP De]]; rewrite De; cbn [rbind].
    - destruct s as [t|b|k z|k f]; cbn [scalar_float64].
      + destruct (parse_float F64 t) as [f|] eqn:P; do 2 eexists; (split; [split; reflexivity|]).
        * apply fc_num; auto. eapply fo_text; eauto.
        * eapply fc_text; eauto.
      + do 2 eexists; (split; [split; reflexivity|]). apply fc_type; auto; other S.
      + do 2 eexists; (split; [split; reflexivity|]). apply fc_num; auto. eapply fo_int; eauto.
      + exists (GVal (Some match k with F64 => f | F32 => flt_conv F64 f end)), [].
        split; [split; destruct k; reflexivity|]. apply fc_num; auto. eapply fo_flt; eauto.
    - do 2 eexists; (split; [split; reflexivity|]). apply fc_type; auto.
  Qed.
  Lemma float_of_set f : float_of h i f -> ~ counts_as_nil X i.
  Proof. intros [? ? S|? ? S|? ? S]; apply set_iff; exact (stands_unset X _ _ _ S). Qed.
  Lemma float_of_fun f g : float_of h i f -> float_of h i g -> f = g.
  Proof.
    intros [k f0 S|k z S|t f0 S P] [k' f' S'|k' z' S'|t' f' S' P']; pose proof (stands_fun _ _ _ _ S S') as E; try discriminate E;
      injection E; intros; subst; auto. congruence.
  Qed.
  Lemma float_not_text f t : float_of h i f -> stands_for h i (SStr t) -> parse_float F64 t = None -> False.
  Proof.
    intros [k f0 S|k z S|t' f0 S P] S' N; pose proof (stands_fun _ _ _ _ S S') as E; try discriminate E. congruence.
  Qed.
  Lemma float_not_type f : float_of h i f -> (forall k' f, ~ stands_for h i (SFlt k' f)) -> (forall k' z, ~ stands_for h i (SInt k' z)) ->
      (forall t, ~ stands_for h i (SStr t)) -> False.
  Proof. intros [k f0 S|k z S|t' f0 S P] A B C; [eapply A|eapply B|eapply C]; eauto. Qed.

  Lemma narrow_iff f : narrow_says f = [] <-> exists g, parse_float F32 (format_f f) = Some g.
  Proof. unfold narrow_says. destruct (parse_float F32 (format_f f)); split; eauto; try discriminate. intros [g E]. discriminate. Qed.

  Lemma float_says_iff k ms : value_says Q X h (QFlt k) v = Ok ms <-> float_texts X h k i ms.
  Proof.
    destruct f_total as (r & m & [G1 G2] & C).
    assert (E : value_says Q X h (QFlt k) v = Ok (match r, k with GVal (Some f), F32 => narrow_says f | _, _ => m end)).
    { cbn [value_says]. unfold float32_says. rewrite G1, G2. cbn [rbind].
      destruct C; destruct k; reflexivity. }
    rewrite E. clear E. split.
    - intros H. injection H as <-. destruct C as [N|f N Ff|t N S P|N A B D].
      + destruct k; now apply ft_nil.
      + destruct k.
        * unfold narrow_says. destruct (parse_float F32 (format_f f)) eqn:P.
          -- eapply ft_fits; eauto.
          -- eapply ft_range; eauto.
        * eapply ft_fits; [eauto|discriminate].
      + destruct k; eapply ft_text; eauto.
      + destruct k; now apply ft_type.
    - intros H. f_equal. destruct C as [N|f N Ff|t N S P|N A B D].
      + destruct H as [_|f Ff|f Ff|t S|NN]; try reflexivity.
        * now apply float_of_set in Ff.
        * exfalso. unfold counts_as_nil in N. rewrite (stands_unset X _ _ _ S) in N. discriminate.
        * contradiction.
      + destruct H as [N'|f' Ff' Hk|f' Ff' Ek P|t S P|NN A B D]; [contradiction| | | |].
        * pose proof (float_of_fun _ _ Ff Ff'). subst f'. destruct k; auto. now apply narrow_iff, Hk.
        * pose proof (float_of_fun _ _ Ff Ff'). subst f' k. unfold narrow_says. rewrite P. reflexivity.
        * destruct (float_not_text _ _ Ff S P).
        * destruct (float_not_type _ Ff A B D).
      + destruct H as [N'|f' Ff' Hk|f' Ff' Ek P'|t' S' P'|NN A B D]; [contradiction| | |reflexivity|].
        * destruct (float_not_text _ _ Ff' S P).
        * destruct (float_not_text _ _ Ff' S P).
        * now apply D in S.
      + destruct H as [N'|f' Ff' Hk|f' Ff' Ek P'|t' S' P'|NN A' B' D']; [contradiction| | | |reflexivity].
        * destruct (float_not_type _ Ff' A B D).
        * destruct (float_not_type _ Ff' A B D).
        * now apply D in S'.
  Qed.
  Lemma float_value_iff k ms : value_says Q X h (QFltV k) v = Ok ms <->
    (counts_as_nil X i /\ ms = [lit "error: Map.GetFloat64 returned a nil value"]) \/ (~ counts_as_nil X i /\ float_texts X h k i ms).
  Proof.
    rewrite <- float_says_iff. destruct f_total as (r & m & [G1 G2] & C).
    assert (E : value_says Q X h (QFltV k) v = match r with GVal None => Ok [lit "error: Map.GetFloat64 returned a nil value"] | _ => value_says Q X h (QFlt k) v end).
    { destruct k; cbn [value_says]; unfold float32_says, float32_value_says, float64_value_says; rewrite G1, G2; cbn [rbind];
        destruct C; reflexivity. }
    rewrite E. destruct C as [N|f N Ff|t N S P|N A B D]; (split; [intros H; try (injection H as <-); tauto|intros [[H ->]|[H1 H2]]; tauto]).
  Qed.

  (** ** Strings *)
  Lemma string_cases : (unset X i = true) \/ is_string h i \/ (unset X i = false /\ ~ is_string h i).
  Proof.
    destruct (unset X i) eqn:N; auto. right. destruct (scalar_or_not X h i O N) as [(s & S & De)|[NP De]].
    - destruct s as [t|b|k z|k f]; [left; exists t; auto|right..]; (split; [auto|]); intros [t S'];
        pose proof (stands_fun _ _ _ _ S S'); discriminate.
    - right. split; auto. intros [t S]. now apply NP in S.
  Qed.
  Lemma string_get : exists r, value_GetString X v h = r
    /\ ((unset X i = true /\ r = Ok (GVal None, h)) \/ (is_string h i /\ exists p h', r = Ok (GVal (Some p), h'))
        \/ (unset X i = false /\ ~ is_string h i /\ r = Panic)).
  Proof.
    eexists. split; [reflexivity|]. unfold value_GetString. enter.
    destruct string_cases as [N|[[t S]|[N NS]]].
    - rewrite N. auto.
    - rewrite (stands_unset X _ _ _ S). right. left. split; [now exists t|]. destruct S as [->|(p & -> & _)].
      + unfold bind, alloc, ret. eauto.
      + cbn [stype_of]. eauto.
    - rewrite N. right. right. split; auto. split; auto.
      cases_iface i; try reflexivity; try discriminate N.
      + destruct s; try reflexivity. exfalso. apply NS. exists s. now left.
      + destruct O as (s & E & <-). destruct s; try reflexivity. exfalso. apply NS. exists s. right. eauto.
  Qed.
  Lemma string_set : is_string h i -> ~ counts_as_nil X i.
  Proof. intros [t S]. apply set_iff. exact (stands_unset X _ _ _ S). Qed.
  Lemma string_iff ms : value_says Q X h QStr v = Ok ms <-> ms = [] /\ (counts_as_nil X i \/ is_string h i).
  Proof.
    cbn [value_says]. unfold string_says. destruct string_get as (r & -> & [[N ->]|[[S (p & h' & ->)]|(N & NS & ->)]]); cbn [rbind].
    - split; [intros E; injection E as <-; auto|intros [-> _]; auto].
    - split; [intros E; injection E as <-; auto|intros [-> _]; auto].
    - split; [discriminate|]. intros [_ [H|H]]; [apply set_iff in N; contradiction|contradiction].
  Qed.
  Lemma string_value_iff ms : value_says Q X h QStrV v = Ok ms
    <-> (counts_as_nil X i /\ ms = [lit "Value.GetStringValue is nil"]) \/ (is_string h i /\ ms = []).
  Proof.
    cbn [value_says]. unfold string_value_says, string_says.
    destruct string_get as (r & -> & [[N ->]|[[S (p & h' & ->)]|(N & NS & ->)]]); cbn [rbind fst nil_says].
    - split; [intros E; injection E as <-; auto|]. intros [[_ ->]|[S ->]]; auto. now apply string_set in S.
    - split; [intros E; injection E as <-; auto|]. intros [[H ->]|[_ ->]]; auto. now apply string_set in S.
    - split; [discriminate|]. intros [[H _]|[H _]]; [apply set_iff in N; contradiction|contradiction].
  Qed.

  (** ** Booleans *)
  Lemma bool_word_iff t : bool_word t <-> bool_of_text t <> None.
  Proof.
    unfold bool_word, bool_of_text.
    destruct (str_eqb_spec t (lit "1")) as [->|N1]; [split; [discriminate|cbn; auto]|].
    destruct (str_eqb_spec t (lit "true")) as [->|N2]; [split; [discriminate|cbn; auto]|]. cbn [orb].
    destruct (str_eqb_spec t (lit "0")) as [->|N3]; [split; [discriminate|cbn; auto]|].
    destruct (str_eqb_spec t (lit "false")) as [->|N4]; [split; [discriminate|cbn; auto]|]. cbn [orb].
    split; [|congruence]. cbn [In]. intros [<-|[<-|[<-|[<-|[]]]]]; congruence.
  Qed.
  Lemma bool_iff unknown nil r ms :
    (unset X i = true -> r = Ok nil) ->
    (forall b, stands_for h i (SBool b) -> r = Ok []) ->
    (forall t, stands_for h i (SStr t) -> r = Ok (if bool_of_text t then [] else [unknown i t])) ->
    (unset X i = false -> (forall b, ~ stands_for h i (SBool b)) -> (forall t, ~ stands_for h i (SStr t)) ->
      r = Ok [unsupported X (lit "Map.GetBool") i []]) ->
    r = Ok ms <-> bool_texts X h unknown nil i ms.
  Proof.
    intros R1 R2 R3 R4. split.
    - intros E. destruct (unset X i) eqn:N.
      + rewrite R1 in E by auto. injection E as <-. now apply bt_nil.
      + pose proof (proj2 (set_iff X i) N) as NN.
        destruct (scalar_or_not X h i O N) as [(s & S & De)|[NP De]].
        * destruct s as [t|b|k z|k f].
          -- rewrite (R3 _ S) in E. destruct (bool_of_text t) eqn:B; injection E as <-.
             ++ eapply bt_word; eauto. apply bool_word_iff. congruence.
             ++ eapply bt_text; eauto. rewrite bool_word_iff. congruence.
          -- rewrite (R2 _ S) in E. injection E as <-. eapply bt_bool; eauto.
          -- rewrite R4 in E; auto; [|other S|other S]. injection E as <-. apply bt_type; auto; other S.
          -- rewrite R4 in E; auto; [|other S|other S]. injection E as <-. apply bt_type; auto; other S.
        * rewrite R4 in E; auto. injection E as <-. now apply bt_type.
    - intros [N|b S|t S B|t S B|N NB NS]; auto.
      + eauto.
      + rewrite (R3 _ S). apply bool_word_iff in B. destruct (bool_of_text t); congruence.
      + rewrite (R3 _ S). rewrite bool_word_iff in B. destruct (bool_of_text t); auto. destruct B. discriminate.
      + apply R4; auto. now apply set_iff.
  Qed.
  Lemma bool_says_iff ms : value_says Q X h QBool v = Ok ms <->
    bool_texts X h (fun i t => lit "error: Map.GetBool: unknown value for " ++ go_type X i ++ lit ": " ++ t) [] i ms.
  Proof.
    cbn [value_says]. apply bool_iff; unfold bool_says; enter.
    - intros ->. reflexivity.
    - intros b S. rewrite (stands_unset X _ _ _ S). destruct S as [->|(p & -> & _)]; reflexivity.
    - intros t S. rewrite (stands_unset X _ _ _ S). pose proof (stands_deref _ _ _ S) as De.
      destruct S as [->|(p & -> & _)]; cbn [stype_of] in *; rewrite De; cbn [rbind]; destruct (bool_of_text t); reflexivity.
    - intros N NB NS. rewrite N. cases_iface i; try reflexivity; try discriminate N.
      + destruct s; try reflexivity; exfalso; [eapply NS|eapply NB]; now left.
      + destruct O as (s & E & <-). destruct s; try reflexivity; exfalso; [eapply NS|eapply NB]; right; eauto.
  Qed.
  Lemma bool_value_iff ms : value_says Q X h QBoolV v = Ok ms <->
    bool_texts X h (fun i t => lit "error: Value.GetBoolValue: unknown value") [lit "Value.GetBoolValue value is nil"] i ms.
  Proof.
    cbn [value_says]. apply bool_iff; unfold bool_value_says; enter.
    - intros ->. reflexivity.
    - intros b S. rewrite (stands_unset X _ _ _ S), (stands_deref _ _ _ S). reflexivity.
    - intros t S. rewrite (stands_unset X _ _ _ S), (stands_deref _ _ _ S). cbn [rbind]. destruct (bool_of_text t); reflexivity.
    - intros N NB NS. rewrite N. destruct (scalar_or_not X h i O N) as [(s & S & De)|[NP De]]; rewrite De; cbn [rbind].
      + destruct s; try reflexivity; exfalso; [eapply NS|eapply NB]; eauto.
      + reflexivity.
  Qed.

  (** ** Getters with one answer *)
  Lemma plain_iff good nil text (r : res (list str)) ms :
    good i \/ ~ good i ->
    (unset X i = true -> r = Ok nil) ->
    (unset X i = false -> good i -> r = Ok []) ->
    (unset X i = false -> ~ good i -> r = Ok text) ->
    r = Ok ms <-> plain_texts X good nil text i ms.
  Proof.
    intros D R1 R2 R3. split.
    - intros E. destruct (unset X i) eqn:N.
      + rewrite R1 in E by auto. injection E as <-. now apply pt_nil.
      + pose proof (proj2 (set_iff X i) N) as NN. destruct D as [G|G].
        * rewrite R2 in E by auto. injection E as <-. now apply pt_good.
        * rewrite R3 in E by auto. injection E as <-. now apply pt_other.
    - intros [N|N G|N G]; auto.
      + apply R2; auto. now apply set_iff.
      + apply R3; auto. now apply set_iff.
  Qed.
  Lemma string_dec : is_string h i \/ ~ is_string h i.
  Proof.
    destruct string_cases as [N|[S|[_ S]]]; auto. right. intros S. apply string_set in S. auto.
  Qed.

  Ltac bad G := exfalso; apply G; unfold is_map, is_array, is_func, is_error_list; eauto 6; fail.
  Lemma map_iff ms : value_says Q X h QMap v = Ok ms <-> plain_texts X is_map [] [go_type X i ++ lit " failed to unbox to json.Map"] i ms.
  Proof.
    cbn [value_says]. apply plain_iff; [apply map_dec| | |]; unfold map_ptr_says; enter.
    - intros ->. reflexivity.
    - intros -> [m [-> | ->]]; reflexivity.
    - intros N G. rewrite N. cases_iface i; try reflexivity; try discriminate N; bad G.
  Qed.
  Lemma map_value_iff ms : value_says Q X h QMapV v = Ok ms
    <-> plain_texts X is_map [lit "map is nil"] [go_type X i ++ lit " failed to unbox to json.Map"] i ms.
  Proof.
    cbn [value_says]. apply plain_iff; [apply map_dec| | |]; unfold map_value_says; enter.
    - intros ->. reflexivity.
    - intros -> [m [-> | ->]]; reflexivity.
    - intros N G. rewrite N. cases_iface i; try reflexivity; try discriminate N; bad G.
  Qed.
  Lemma array_iff ms : value_says Q X h QArr v = Ok ms <-> plain_texts X is_array [] [unsupported X (lit "Value.GetArray") i []] i ms.
  Proof.
    cbn [value_says]. apply plain_iff; [apply array_dec| | |]; unfold array_says; enter.
    - intros ->. reflexivity.
    - intros -> [m [-> | ->]]; reflexivity.
    - intros N G. rewrite N. cases_iface i; try reflexivity; try discriminate N; bad G.
  Qed.
  Lemma array_value_iff ms : value_says Q X h QArrV v = Ok ms
    <-> plain_texts X is_array [lit "Value.GetArrayValue array is nil"] [unsupported X (lit "Value.GetArray") i []] i ms.
  Proof.
    cbn [value_says]. apply plain_iff; [apply array_dec| | |]; unfold array_value_says, value_GetArrayValue, value_GetArray, array_says, value_IsNil;
      rewrite (rdv _ _ _ V); cbn [rbind]; rewrite isnil.
    - intros N. do 4 (rewrite ?(rdv _ _ _ V), ?isnil, ?N; cbn [rbind]). reflexivity.
    - intros N [m E]. assert (A : exists a, match i with IArr a => Ok (GVal (Some a)) | IPArr o => Ok (GVal o) | _ => Ok (GErr [EType]) end
                  = Ok (@GVal (option loc) (Some a))
               /\ match i with IArr _ | IPArr _ => Ok [] | _ => Ok [lit "error: Value.GetArray: type " ++ gtype_text (common_GetType X i)
                    ++ lit " is not supported please implement"] end = Ok []).
      { exists m. destruct E as [E|E]; rewrite E; split; reflexivity. }
      destruct A as (a & E1 & E2). rewrite N, E1. do 4 (rewrite ?(rdv _ _ _ V), ?isnil, ?N, ?E2; cbn [rbind]). reflexivity.
    - intros N G. rewrite N.
      assert (E : match i with IArr a => Ok (GVal (Some a)) | IPArr o => Ok (GVal o) | _ => Ok (GErr [EType]) end
                  = Ok (@GErr (option loc) [EType])
               /\ match i with IArr _ | IPArr _ => Ok [] | _ => Ok [lit "error: Value.GetArray: type " ++ gtype_text (common_GetType X i)
                    ++ lit " is not supported please implement"] end = Ok [unsupported X (lit "Value.GetArray") i []]).
      { cases_iface i; try (split; reflexivity); try discriminate N; bad G. }
      destruct E as [E1 E2]. rewrite E1. do 4 (rewrite ?(rdv _ _ _ V), ?isnil, ?N, ?E2; cbn [rbind]). reflexivity.
  Qed.
  Lemma func_iff ms : value_says Q X h QFunc v = Ok ms <-> plain_texts X is_func [] [unsupported X (lit "Map.Func") i []] i ms.
  Proof.
    cbn [value_says]. apply plain_iff; [apply func_dec| | |]; unfold func_says; enter.
    - intros ->. reflexivity.
    - intros N [m [E|E]]; rewrite N, E; reflexivity.
    - intros N G. rewrite N. cases_iface i; try discriminate N; try bad G;
        destruct (common_GetType X _) eqn:E; unfold unsupported, go_type; rewrite ?E; try reflexivity; destruct ptr; reflexivity.
  Qed.
  Lemma runes_iff ms : value_says Q X h QRunes v = Ok ms
    <-> plain_texts X (is_string h) [] [unsupported X (lit "Value.GetString") i (lit " for attribute: %!s(MISSING)")] i ms.
  Proof.
    cbn [value_says]. apply plain_iff; [apply string_dec| | |]; unfold runes_says; enter.
    - intros ->. reflexivity.
    - intros N [t [E|(p & E & _)]]; rewrite N, E; reflexivity.
    - intros N G. rewrite N. cases_iface i; try discriminate N; try reflexivity.
      + destruct s; try reflexivity. exfalso. apply G. exists s. now left.
      + destruct O as (s & E & <-). destruct s; try reflexivity. exfalso. apply G. exists s. right. eauto.
  Qed.

  (** ** Errors *)
  Lemma elems_iff l : Forall (fun o => forall w, o = Some w -> exists j, nth_error h w = Some (CVal j)) l ->
    forall ms, elems_say X h l = Ok ms <-> elem_texts X h l ms.
  Proof.
    induction 1 as [|o l Ho _ IH]; intros ms; cbn [elems_say].
    - split; [intros E; injection E as <-; constructor|intros E; inversion E; reflexivity].
    - split.
      + intros E. destruct (conv_string X h (IPVal o)) as [[t|e]| | |] eqn:C; try discriminate E; cbn [rbind] in E.
        * destruct (elems_say X h l) as [m0| | |] eqn:El; try discriminate E. injection E as <-. cbn [app].
          eapply et_text; eauto. now apply IH.
        * destruct o as [w|].
          -- destruct (Ho w eq_refl) as [j G]. pose proof G as G'. apply rd_val_iff in G. rewrite G in E. cbn [rbind] in E.
             destruct (elems_say X h l) as [m0| | |] eqn:El; try discriminate E. injection E as <-.
             eapply et_none; eauto. now apply IH.
          -- discriminate C.
      + intros E. inversion E as [|? ? t m0 C El|w j ? e m0 C G El]; subst.
        * rewrite C. cbn [rbind]. rewrite (proj2 (IH _) El). reflexivity.
        * rewrite C. cbn [rbind]. apply rd_val_iff in G. rewrite G. cbn [rbind]. rewrite (proj2 (IH _) El). reflexivity.
  Qed.
End S.
