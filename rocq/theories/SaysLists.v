(** * The texts of the getters' errors: arrays, and as many texts as errors (proofs for C80) *)
From Coq Require Import Ascii String List NArith ZArith Bool Lia.
From Verif Require Import GoStr StrLemmas GoNum GoFloat NumLemmas Heap Common ValueModel ArrayModel MapModel RunesModel GetterModel
  MessageModel SpecDict DictLemmas SpecNum SpecWorld Inv World Reach MapFacts GetterFacts SpecDoc SpecRender ShowFacts SpecString IndexFacts
  SpecMessage MessageFacts SpecNamed SaysModel SpecSays SaysFacts SaysInts SaysRest SaysAll.
Import ListNotations.
Local Open Scope Z_scope.

Section S.
  Context (Q : str -> str) (X : ext) (h : heap) (I : Inv h).

  (** ** Arrays *)
  Lemma collect_iff null g l :
    Forall (fun o => forall w, o = Some w -> exists j, nth_error h w = Some (CVal j)) l ->
    (forall w i, In (Some w) l -> nth_error h w = Some (CVal i) -> typed_ints X h i) ->
    forall ms, collect_says null (value_says Q X h g) l = Ok ms <-> list_texts Q X h null g l ms.
  Proof.
    induction 1 as [|o l Ho _ IH]; intros F ms; cbn [collect_says].
    - split; [intros E; injection E as <-; constructor|intros E; inversion E; reflexivity].
    - specialize (IH (fun w i P => F w i (or_intror P))). destruct o as [w|].
      + destruct (Ho w eq_refl) as [i V]. pose proof (F w i (or_introl eq_refl) V) as Fi. split.
        * intros E. destruct (value_says Q X h g w) as [m| | |] eqn:Em; try discriminate E. cbn [rbind] in E.
          destruct (collect_says null (value_says Q X h g) l) as [m0| | |] eqn:El; try discriminate E. injection E as <-.
          econstructor; eauto; [|now apply IH]. now apply (value_says_iff Q X h I g w i).
        * intros E. inversion E as [| |? i' ? m m0 V' T El]; subst. assert (i' = i) by congruence. subst i'.
          apply (value_says_iff Q X h I g w i) in T; auto. rewrite T. cbn [rbind]. now rewrite (proj2 (IH _) El).
      + split.
        * intros E. destruct (collect_says null (value_says Q X h g) l) as [m0| | |] eqn:El; try discriminate E. injection E as <-.
          constructor. now apply IH.
        * intros E. inversion E as [|? m0 El|]; subst. now rewrite (proj2 (IH _) El).
  Qed.

  Lemma array_of_iff g null a l ms : array_getter g null -> rd_arr h a = Ok l ->
    (forall w i, In (Some w) l -> nth_error h w = Some (CVal i) -> typed_ints X h i) ->
    array_of_says Q X h g a = Ok ms <-> list_texts Q X h null g l ms.
  Proof.
    intros G E F. assert (R : array_of_says Q X h g a = collect_says null (value_says Q X h g) l).
    { destruct G as [k N1 N2|k| | |k N1 N2|k| |]; try (destruct k; try congruence); unfold array_of_says; rewrite E; reflexivity. }
    rewrite R. apply collect_iff; auto. eapply arr_vals; eauto.
  Qed.

  Definition getter_ok (g : asked) (get : loc -> res (list str)) : Prop :=
    forall w i ms, nth_error h w = Some (CVal i) -> get w = Ok ms <-> texts Q X h g i ms.
  Lemma str_getter : getter_ok QStrV (string_value_says X h).
  Proof. 
    intros w i ms V. pose proof (inv_val _ I _ _ V) as O.
    change (string_value_says X h w) with (value_says Q X h QStrV w). rewrite (string_value_iff Q X h w i V O). split; intros H.
    - destruct H as [[H ->]|[H ->]]; [now apply tx_str_nil|now apply tx_str_value].
    - inversion H; subst; auto.
  Qed.
  Lemma map_getter : getter_ok QMap (map_ptr_says X h).
  Proof.
    intros w i ms V. pose proof (inv_val _ I _ _ V) as O.
    change (map_ptr_says X h w) with (value_says Q X h QMap w). rewrite (map_iff Q X h w i V O).
    split; intros H; [now apply tx_map|now inversion H].
  Qed.
  Lemma str_one i ms : texts Q X h QStrV i ms -> ms = [] \/ exists m, ms = [m].
  Proof. intros H. inversion H; eauto. Qed.
  Lemma map_one i ms : texts Q X h QMap i ms -> ms = [] \/ exists m, ms = [m].
  Proof. intros H. inversion H; subst. match goal with P : plain_texts _ _ _ _ _ _ |- _ => inversion P; eauto end. Qed.

  Lemma elem_panic_nil a l n get : rd_arr h a = Ok l -> 0 <= n -> nth_error l (Z.to_nat n) = Some None ->
    arr_elem_says h get a n = Panic.
  Proof.
    intros E L N. unfold arr_elem_says. rewrite E. cbn [rbind].
    destruct (Z.ltb_spec n 0); [lia|]. assert (Z.to_nat n < length l)%nat by (apply nth_error_Some; congruence).
    destruct (Z.ltb_spec (Z.of_nat (length l) - 1) n); [lia|]. now rewrite N.
  Qed.

  Lemma elem_at l n : 0 <= n < Z.of_nat (length l) -> exists o, nth_error l (Z.to_nat n) = Some (o : option loc).
  Proof.
    intros L. destruct (nth_error l (Z.to_nat n)) eqn:E; eauto. apply nth_error_None in E. lia.
  Qed.

  Lemma string_at_iff a l n ms : rd_arr h a = Ok l ->
    arr_string_says X h a n = Ok ms <-> element_texts Q X h QStrV [] l n ms.
  Proof.
    intros E. unfold arr_string_says, arr_elem_says. rewrite E. cbn [rbind]. pose proof (arr_vals h I a l E) as Ho. rewrite Forall_forall in Ho.
    destruct (Z.ltb_spec n 0) as [L|L].
    { split; intros H; [injection H as <-; now apply el_neg|]. inversion H; subst; auto; try lia. }
    destruct (Z.ltb_spec (Z.of_nat (length l) - 1) n) as [L2|L2].
    { split; intros H; [injection H as <-; apply el_range; lia|]. inversion H as [| |? ? ? N|? ? ? N|? ? ? ? N]; subst; auto; try lia;
        assert (Z.to_nat n < length l)%nat by (apply nth_error_Some; congruence); lia. }
    destruct (elem_at l n) as [o N]; [lia|]. rewrite N. destruct o as [w|].
    - destruct (Ho _ (nth_error_In _ _ N) w eq_refl) as [i V]. pose proof (str_getter w i) as G.
      split; intros H.
      + destruct (string_value_says X h w) as [m| | |] eqn:Em; try discriminate H. injection H as <-.
        pose proof (proj1 (G _ V) eq_refl) as T. destruct (str_one _ _ T) as [->|[t ->]].
        * eapply el_fine; eauto. inversion T; subst. now apply (string_set X h).
        * eapply el_error; eauto.
      + inversion H as [| |? ? ? N' V' T|? ? ? N' V' T U|? ? ? ? N' V' T]; subst; try lia;
          rewrite N in N'; injection N' as <-; assert (i0 = i) by congruence; subst i0;
          rewrite (proj2 (G _ V) T); reflexivity.
    - split; [discriminate|]. intros H. inversion H; subst; try lia; congruence.
  Qed.

  Lemma map_at_iff a l n ms : rd_arr h a = Ok l ->
    arr_map_says X h a n = Ok ms <-> element_texts Q X h QMap [lit "Array.GetStringValue value is nil"] l n ms.
  Proof.
    intros E. unfold arr_map_says, arr_elem_says, arr_elem. rewrite E. cbn [rbind]. pose proof (arr_vals h I a l E) as Ho. rewrite Forall_forall in Ho.
    destruct (Z.ltb_spec n 0) as [L|L].
    { cbn [rbind nil_says]. split; intros H; [injection H as <-; now apply el_neg|]. inversion H; subst; auto; try lia. }
    destruct (Z.ltb_spec (Z.of_nat (length l) - 1) n) as [L2|L2].
    { cbn [rbind nil_says]. split; intros H; [injection H as <-; apply el_range; lia|]. inversion H as [| |? ? ? N|? ? ? N|? ? ? ? N]; subst; auto; try lia;
        assert (Z.to_nat n < length l)%nat by (apply nth_error_Some; congruence); lia. }
    destruct (elem_at l n) as [o N]; [lia|]. rewrite N. destruct o as [w|].
    - destruct (Ho _ (nth_error_In _ _ N) w eq_refl) as [i V]. pose proof (map_getter w i) as G.
      assert (C : exists r m, value_GetMap X h w = Ok r /\ map_ptr_says X h w = Ok m
        /\ ((counts_as_nil X i /\ r = GVal None /\ m = []) \/ (~ counts_as_nil X i /\ exists p, r = GVal (Some p) /\ m = [])
            \/ (~ counts_as_nil X i /\ exists e t, r = GErr e /\ m = [t]))).
      { unfold value_GetMap, map_ptr_says. rewrite (rdv _ _ _ V). cbn [rbind]. rewrite isnil. unfold counts_as_nil.
        destruct (unset X i) eqn:U; [do 2 eexists; repeat split; auto|].
        cases_iface i; try discriminate U; (do 2 eexists; split; [reflexivity|]; split; [reflexivity|]); eauto 10. }
      destruct C as (r & m & R & M & C). rewrite R, M. cbn [rbind]. pose proof (proj1 (G _ V) M) as T0.
      split; intros H.
      + injection H as <-. destruct C as [(U & -> & ->)|[(U & p & -> & ->)|(U & e & t & -> & ->)]]; cbn [nil_says].
        * eapply el_nil; eauto.
        * eapply el_fine; eauto.
        * eapply el_error; eauto.
      + inversion H as [| |? ? ? N' V' T U|? ? ? N' V' T U|? ? ? ? N' V' T]; subst; try lia;
          rewrite N in N'; injection N' as <-; assert (i0 = i) by congruence; subst i0;
          apply (G _ V) in T; assert (Em := eq_trans (eq_sym M) T); injection Em as ->;
          destruct C as [(U' & -> & E')|[(U' & p & -> & E')|(U' & e & t & -> & E')]]; try contradiction; try discriminate E';
          reflexivity.
    - split; [discriminate|]. intros H. inversion H; subst; try lia; congruence.
  Qed.

  Lemma at_index_iff a l n ms : rd_arr h a = Ok l -> at_index_says h a n = Ok ms <-> index_texts l n ms.
  Proof.
    intros E. unfold at_index_says, index_texts. rewrite E. cbn [rbind].
    destruct (Z.ltb_spec n 0); [|destruct (Z.ltb_spec (Z.of_nat (length l) - 1) n)];
      (split; [intros H'; injection H' as <-; intuition lia|]);
      intros [[L ->]|[[L ->]|[L ->]]]; try reflexivity; exfalso; lia.
  Qed.

  Lemma remove_key_iff m k ms : has (w_map (view h)) m ->
    remove_key_says h m k = Ok ms <-> remove_texts (map_at (view h) m) k ms.
  Proof.
    intros Hm. pose proof (view_impl h I) as V. 
    destruct (has_map _ _ _ V Hm) as (mo & E & K & _ & U & T).
    unfold remove_key_says, remove_texts. rewrite (proj2 (rd_map_iff _ _ _) E). cbn [rbind].
    pose proof (dict_get_None (map_at (view h) m) k) as DN. fold (dict_keys (map_at (view h) m)) in DN.
    unfold has_key. rewrite T.
    destruct (dict_get (map_at (view h) m) k) as [o|] eqn:D; cbn [negb].
    - assert (P : In k (dict_keys (map_at (view h) m))).
      { apply dict_get_In in D. unfold dict_keys. change k with (fst (k, o)). now apply in_map. }
      destruct (find_index k (m_keys mo)) eqn:FI.
      + split; [intros H; injection H as <-; auto|]. intros [[_ ->]|[H _]]; [reflexivity|contradiction].
      + apply find_index_None in FI. rewrite K in FI. contradiction.
    - split; [intros H; injection H as <-; right; split; [now apply DN|reflexivity]|].
      intros [[H _]|[_ ->]]; [now apply DN in H|reflexivity].
  Qed.

  (** ** As many texts as errors *)
  Definition agree {A} (a : res (gres A)) (b : res (list str)) : Prop :=
    rmap (@length str) b = rmap (@length err) (rmap errs_of a).
  Lemma agree_cases {A} (a : res (gres A)) b : agree a b ->
    (exists r m, a = Ok r /\ b = Ok m /\ length m = length (errs_of r))
    \/ (a = Panic /\ b = Panic) \/ (a = Stuck /\ b = Stuck) \/ (a = NoFuel /\ b = NoFuel).
  Proof.
    unfold agree. destruct a as [r| | |], b as [m| | |]; cbn; intros H; try discriminate H; auto.
    left. exists r, m. repeat split. congruence.
  Qed.

  Lemma conv_one i e : conv_string X h i = Ok (GErr e) -> length e = 1%nat.
  Proof.
    unfold conv_string. destruct (common_IsNil i); [discriminate|].
    destruct (match i with IVal v | IPVal (Some v) => rd_val h v | _ => Ok i end) as [tv| | |]; try discriminate. cbn [rbind].
    unfold conv_held. intros H.
    repeat match type of H with
           | rbind ?x _ = _ => destruct x; cbn [rbind] in H; try discriminate H
           | context [match ?x with _ => _ end] => destruct x; cbn [rbind] in H; try discriminate H
           end; try (injection H as <-; reflexivity).
  Qed.

  Lemma agree_int64 v i : nth_error h v = Some (CVal i) -> agree (value_GetInt64 X h v) (int64_says Q X h v).
  Proof.
    intros V. pose proof (inv_val _ I _ _ V) as O. unfold agree, value_GetInt64, int64_says. rewrite (rdv _ _ _ V). cbn [rbind].
    destruct (iface_IsNil X i) eqn:N; [reflexivity|].
    assert (Dr : (forall w, ~ is_value i w) ->
      rmap (@length str) (o <-r deref h i ;;
                Ok (match o with
                    | Some (SInt KUInt64 z) =>
                        if 9223372036854775807 <? z then [format_uint z ++ lit " is greater than 9223372036854775807"] else []
                    | Some (SInt _ _) => []
                    | Some (SStr t) =>
                        match parse_int 64 t with
                        | Some _ => []
                        | None => match i with
                                  | IPtr _ _ => [lit "error: Map.GetInt64: cannot convert *string value to int64"]
                                  | _ => [lit "error: Map.GetInt64: cannot convert string value to int64"]
                                  end
                        end
                    | _ => [lit "error: Map.GetInt64: type " ++ gtype_text (common_GetType X i)
                            ++ lit " is not supported please implement"]
                    end))
      = rmap (@length err) (rmap errs_of (o <-r deref h i ;; Ok (match o with Some s => scalar_int64 s | None => GErr [EType] end)))).
    { intros _. destruct (deref h i) as [[s|]| | |]; try reflexivity. destruct s as [t|b|k z|k f]; cbn [rbind rmap scalar_int64]; try reflexivity.
      - destruct (parse_int 64 t); [reflexivity|]. destruct i; reflexivity.
      - destruct k; try reflexivity. destruct (9223372036854775807 <? z); reflexivity. }
    assert (Dw : forall w, is_value i w -> rmap (@length str)
      (r <-r conv_string X h (IVal w) ;;
             match r with
             | GErr _ => tv <-r rd_val h w ;; Ok [conv_text X tv]
             | GVal t => Ok (match parse_int 64 t with
                             | Some _ => []
                             | None => [lit "error: Map.GetInt64: cannot convert json.Value to int64 " ++ int_error Q t]
                             end)
             end)
      = rmap (@length err) (rmap errs_of (r <-r conv_string X h (IVal w) ;;
           Ok (match r with
               | GErr e => GErr e
               | GVal t => match parse_int 64 t with
                           | Some z => GVal (Some z)
                           | None => GErr [EConv]
                           end
               end)))).
    { intros w W. destruct (conv_string X h (IVal w)) as [[t|e]| | |] eqn:C; try reflexivity; cbn [rbind].
      - destruct (parse_int 64 t); reflexivity.
      - assert (G : exists j, nth_error h w = Some (CVal j)) by (destruct W as [-> | ->]; exact O).
        destruct G as [j G]. apply rd_val_iff in G. rewrite G. cbn [rbind rmap errs_of]. now rewrite (conv_one _ _ C). }
    cases_iface i; try (apply Dr; intros ? [?|?]; discriminate); apply Dw; [now left|now right].
  Qed.
  Lemma agree_uint64 v i : nth_error h v = Some (CVal i) -> agree (value_GetUInt64 X h v) (uint64_says X h v).
  Proof.
    intros V. unfold agree, value_GetUInt64, uint64_says. rewrite (rdv _ _ _ V). cbn [rbind].
    destruct (iface_IsNil X i) eqn:N; [reflexivity|].
    destruct (deref h i) as [[s|]| | |]; try reflexivity. destruct s as [t|b|k z|k f]; cbn [rbind rmap scalar_uint64]; try reflexivity.
    - destruct (str_eqb t (lit "NULL")); [reflexivity|]. destruct (parse_uint 64 t); reflexivity.
    - destruct k; try reflexivity; destruct (0 <=? z); reflexivity.
  Qed.

  Lemma agree_range lo hi text a b : agree a b ->
    agree (r <-r a ;; Ok (narrow lo hi r)) (r <-r a ;; ms <-r b ;; Ok (range_says lo hi text r ms)).
  Proof.
    intros H. destruct (agree_cases _ _ H) as [(r & m & -> & -> & L)|[[-> ->]|[[-> ->]|[-> ->]]]]; try reflexivity.
    unfold agree. cbn [rbind rmap]. destruct r as [[z|]|e]; cbn [narrow range_says errs_of] in *; try reflexivity.
    - destruct (_ || _); reflexivity.
    - now rewrite L.
  Qed.
  Lemma agree_nil {A} text (a : res (gres (option A))) b : agree a b ->
    agree (r <-r a ;; Ok (to_value r)) (r <-r a ;; ms <-r b ;; Ok (nil_says text r ms)).
  Proof.
    intros H. destruct (agree_cases _ _ H) as [(r & m & -> & -> & L)|[[-> ->]|[[-> ->]|[-> ->]]]]; try reflexivity.
    unfold agree. cbn [rbind rmap]. destruct r as [[z|]|e]; cbn [to_value nil_says errs_of] in *; try reflexivity; now rewrite L.
  Qed.

  Lemma agree_int k v i : nth_error h v = Some (CVal i) -> agree (value_GetIntKind k X h v) (int_says Q X h k v).
  Proof.
    intros V. pose proof (agree_int64 v i V) as A. pose proof (agree_uint64 v i V) as B.
    destruct k; cbn [value_GetIntKind int_says]; unfold value_GetInt, value_GetInt8, value_GetInt16, value_GetInt32, value_GetUInt8,
      value_GetUInt16, value_GetUInt32, int32_says, signed_says, unsigned_says; try (apply agree_range; assumption); try assumption.
    - destruct (x_is64 X); [assumption|]. apply agree_range; assumption.
    - reflexivity.
  Qed.
  Lemma agree_float v i : nth_error h v = Some (CVal i) -> agree (value_GetFloat64 X h v) (float64_says X h v).
  Proof.
    intros V. unfold agree, value_GetFloat64, float64_says. rewrite (rdv _ _ _ V). cbn [rbind].
    destruct (iface_IsNil X i) eqn:N; [reflexivity|].
    destruct (deref h i) as [[s|]| | |]; try reflexivity. destruct s as [t|b|k z|[] f]; cbn [rbind rmap scalar_float64]; try reflexivity.
    destruct (parse_float F64 t); reflexivity.
  Qed.
  Lemma agree_elems l : Forall (fun o => forall w, o = Some w -> exists j, nth_error h w = Some (CVal j)) l ->
    rmap (@length str) (elems_say X h l) = rmap (fun q => length (snd q)) (conv_strings X h l).
  Proof.
    induction 1 as [|o l Ho _ IH]; cbn [elems_say conv_strings]; [reflexivity|].
    destruct (conv_string X h (IPVal o)) as [[t|e]| | |] eqn:C; try reflexivity; cbn [rbind].
    - destruct (elems_say X h l) as [m| | |], (conv_strings X h l) as [[q1 q2]| | |]; try discriminate IH; cbn in *; auto.
    - pose proof (conv_one _ _ C) as Le. destruct o as [w|]; [|discriminate C].
      destruct (Ho w eq_refl) as [j G]. apply rd_val_iff in G. rewrite G. cbn [rbind].
      destruct (elems_say X h l) as [m| | |], (conv_strings X h l) as [[q1 q2]| | |]; try discriminate IH; cbn in *; auto.
      injection IH as IH. rewrite app_length, Le, IH. reflexivity.
  Qed.

  Lemma value_agree g v i : nth_error h v = Some (CVal i) ->
    rmap (@length str) (value_says Q X h g v) = rmap (@length err) (value_errs X h g v).
  Proof.
    intros V. pose proof (inv_val _ I _ _ V) as O. pose proof (agree_float v i V) as AF.
    destruct g as [k|k|k|k| | | | | | | | | | |]; cbn [value_says value_errs].
    - exact (agree_int k v i V).
    - exact (agree_nil (int_nil_text k) _ _ (agree_int k v i V)).
    - destruct k; [|exact AF]. unfold float32_says, value_GetFloat32.
      destruct (agree_cases _ _ AF) as [(r & m & -> & -> & L)|[[-> ->]|[[-> ->]|[-> ->]]]]; try reflexivity.
      cbn [rbind rmap]. destruct r as [[f|]|e]; cbn [errs_of] in *; try reflexivity; [|now rewrite L].
      unfold narrow_says, narrow_float32. destruct (parse_float F32 (format_f f)); reflexivity.
    - destruct k; [|exact (agree_nil float_nil_text _ _ AF)]. unfold float32_value_says, value_GetFloat32Value.
      destruct (agree_cases _ _ AF) as [(r & m & -> & -> & L)|[[-> ->]|[[-> ->]|[-> ->]]]]; try reflexivity.
      cbn [rbind rmap]. destruct r as [[f|]|e]; cbn [errs_of to_value] in *; try reflexivity; [|now rewrite L].
      unfold narrow_says, narrow_float32. destruct (parse_float F32 (format_f f)); reflexivity.
    - unfold string_says, value_GetString_content, value_GetString. rewrite (rdv _ _ _ V). cbn [rbind].
      destruct (iface_IsNil X i); [reflexivity|]. cases_iface i; try reflexivity.
      + destruct s; try reflexivity. unfold bind, alloc, ret. cbn [rbind]. unfold rd_ptr. rewrite nth_error_app2, Nat.sub_diag by lia. reflexivity.
      + destruct O as (s & E & <-). destruct s; try reflexivity. cbn [stype_of rbind]. rewrite (proj2 (rd_ptr_iff _ _ _) E). reflexivity.
      + destruct t; reflexivity.
    - unfold string_value_says, string_says, value_GetStringValue, value_GetString. rewrite (rdv _ _ _ V). cbn [rbind].
      destruct (iface_IsNil X i); [reflexivity|]. cases_iface i; try reflexivity.
      + destruct s; try reflexivity. unfold bind, alloc, ret. cbn [rbind]. unfold rd_ptr. rewrite nth_error_app2, Nat.sub_diag by lia. reflexivity.
      + destruct O as (s & E & <-). destruct s; try reflexivity. cbn [stype_of rbind fst]. rewrite (proj2 (rd_ptr_iff _ _ _) E). reflexivity.
      + destruct t; reflexivity.
    - unfold bool_says, value_GetBool_content, value_GetBool. rewrite (rdv _ _ _ V). cbn [rbind].
      destruct (iface_IsNil X i); [reflexivity|]. cases_iface i; try reflexivity.
      + destruct s; try reflexivity; cbn [deref rbind].
        * destruct (bool_of_text s); [|reflexivity].
          unfold bind, alloc, ret. cbn [rbind]. unfold rd_ptr. rewrite nth_error_app2, Nat.sub_diag by lia. reflexivity.
        * unfold bind, alloc, ret. cbn [rbind]. unfold rd_ptr. rewrite nth_error_app2, Nat.sub_diag by lia. reflexivity.
      + destruct O as (s & E & <-). destruct s; try reflexivity; cbn [stype_of].
        * assert (S : stands_for h (IPtr TyStr (Some p)) (SStr s)) by (right; eauto). rewrite (stands_deref _ _ _ S). cbn [rbind].
          destruct (bool_of_text s); [|reflexivity].
          unfold bind, alloc, ret. cbn [rbind]. unfold rd_ptr. rewrite nth_error_app2, Nat.sub_diag by lia. reflexivity.
        * cbn [rbind]. rewrite (proj2 (rd_ptr_iff _ _ _) E). reflexivity.
      + destruct t; reflexivity.
    - unfold bool_value_says, value_GetBoolValue. rewrite (rdv _ _ _ V). cbn [rbind].
      destruct (iface_IsNil X i); [reflexivity|]. destruct (deref h i) as [[s|]| | |]; try reflexivity. destruct s as [t|b|k z|[] f]; try reflexivity.
      cbn [rbind]. destruct (bool_of_text t); reflexivity.
    - unfold map_ptr_says, value_GetMap. rewrite (rdv _ _ _ V). cbn [rbind]. destruct (iface_IsNil X i); [reflexivity|]. destruct i; reflexivity.
    - unfold map_value_says, value_GetMapValue. rewrite (rdv _ _ _ V). cbn [rbind]. destruct (iface_IsNil X i); [reflexivity|].
      cases_iface i; reflexivity.
    - unfold array_says, value_GetArray. rewrite (rdv _ _ _ V). cbn [rbind]. destruct (iface_IsNil X i); [reflexivity|]. destruct i; reflexivity.
    - unfold array_value_says, value_GetArrayValue, value_GetArray, array_says, value_IsNil. rewrite (rdv _ _ _ V). cbn [rbind].
      destruct (iface_IsNil X i) eqn:N; [reflexivity|]. rewrite isnil in N. cases_iface i; try discriminate N; reflexivity.
    - unfold errors_say, value_GetErrors. rewrite (rdv _ _ _ V). cbn [rbind].
      destruct (iface_IsNil X i); [reflexivity|].
      assert (A : forall a, rmap (@length str) (l <-r rd_arr h a ;; elems_say X h l)
        = rmap (@length err) (rmap errs_of (l <-r rd_arr h a ;; q <-r conv_strings X h l ;;
             Ok (match snd q with [] => GVal (map Plain (fst q)) | e => GErr e end)))).
      { intros a. destruct (rd_arr h a) as [l| | |] eqn:R; try reflexivity. cbn [rbind].
        pose proof (agree_elems l (arr_vals h I a l R)) as E.
        destruct (elems_say X h l) as [m| | |], (conv_strings X h l) as [[q1 q2]| | |]; try discriminate E; try reflexivity; cbn in *.
        injection E as ->. destruct q2; reflexivity. }
      cases_iface i; try reflexivity; apply A.
    - unfold func_says, value_GetFunc. rewrite (rdv _ _ _ V). cbn [rbind]. destruct (iface_IsNil X i); [reflexivity|].
      destruct (common_GetType X i); try reflexivity. destruct ptr; destruct i; try reflexivity. destruct o; reflexivity.
    - unfold runes_says, value_GetRunes. rewrite (rdv _ _ _ V). cbn [rbind]. destruct (iface_IsNil X i); [reflexivity|].
      cases_iface i; try reflexivity.
      + destruct s; reflexivity.
      + destruct O as (s & E & <-). destruct s; try reflexivity. cbn [stype_of]. rewrite (proj2 (rd_ptr_iff _ _ _) E). reflexivity.
      + destruct t; reflexivity.
  Qed.
End S.
