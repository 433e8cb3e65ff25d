(** * The texts of the errors of Clone (proofs for C81) *)
From Coq Require Import Ascii String List NArith ZArith Bool Lia.
From Verif Require Import GoStr StrLemmas GoNum NumLemmas GoFloat Heap Common ValueModel ArrayModel MapModel JsonModel GetterModel
  SpecDict DictLemmas SpecWorld Inv World Reach SpecNum SpecFloat FloatFacts SpecDoc RepFacts SpecToken SpecRender RenderFacts ShowFacts RoundFacts
  SpecClone SpecHistory CloneFacts SpecWrite WriteFacts SpecConvert ConvertFacts SaysModel SpecSays ToldModel SpecTold ToldFacts.
Import ListNotations.
Local Open Scope nat_scope.

Section C.
  Context (X : ext) (h : heap) (w : world) (F : nat -> Prop) (I : impl h w).

  Definition outr (who : str) (k : content) : res (list str) := outl (crashes X k) (refusals X who k).
  Definition child (rec : ckind -> loc -> res (list str)) (who : str) (i : iface) (v : loc) : res (list str) :=
    let g := common_GetType X i in
    if common_IsMap g then clone_map_says X rec h who v
    else if common_IsArray X g then clone_arr_says X rec h who v
    else clone_plain_says X h i.

  Lemma leaf_child rec who i v : leaf i -> rd_val h v = Ok i -> child rec who i v = outr who (HLeaf i).
  Proof.
    intros Lf R. unfold child, clone_map_says, clone_arr_says, value_GetMap, value_GetArray, map_ptr_says, array_says, clone_plain_says, outr. rewrite R.
    unfold leaf in Lf. cbn [rbind crashes refusals].
    destruct i as [|s|t [p|]|m|[m|]|a|[a|]|x|[x|]|l|l|[l|]|[l|]|e|[[|e|te e]|]|n|b|[b|]|[n|]|n [d|]]; cbn [refers] in Lf; try discriminate;
      unfold iface_IsNil, common_recognised, clone_plain, common_GetType, go_type; cbn [common_IsNil andb orb static_type];
      try (destruct (x_typed_nil X) eqn:Tn); cbn [common_IsMap common_IsArray fate_of]; rewrite ?Tn; try reflexivity.
    all: try (match goal with |- context [x_is_array X ?t] => destruct (x_is_array X t) eqn:Ia end; cbn; reflexivity).
    all: try (unfold outl, refusal, unsupported_type, go_type, common_GetType; cbn [common_IsNil andb static_type]; rewrite ?Tn; reflexivity).
    1,2: destruct (x_is_array X TErrs); [reflexivity|]; pose proof (error_messages_spec l) as Em; destruct (error_messages l) as [ms|];
      [rewrite (proj1 Em)|rewrite Em]; reflexivity.
    1: destruct (x_is_array X TPErrs); [reflexivity|]; unfold outl, refusal, unsupported_type, go_type, common_GetType; cbn [common_IsNil andb static_type]; rewrite ?Tn; reflexivity.
    1: destruct (x_is_array X TPStrs); [reflexivity|]; unfold outl, refusal, unsupported_type, go_type, common_GetType; cbn [common_IsNil andb static_type]; rewrite ?Tn; reflexivity.
    all: change (lit "map[string]map[string][][]string") with foreign; cbn [error_types existsb]; rewrite ?orb_false_r, ?andb_false_r, ?andb_true_r;
      destruct (str_eqb n foreign), (str_eqb n (lit "exec.ExitError")), (str_eqb n (lit "*exec.ExitError")), (str_eqb n (lit "*url.Error")); try reflexivity;
      unfold outl, refusal, unsupported_type, go_type, common_GetType; cbn [common_IsNil andb static_type]; rewrite ?Tn; reflexivity.
  Qed.

  (** A rejected nil pointer is the only case in which the type whose Clone it is matters. *)
  Lemma who_nil i k who who' : holds_obj w F i k -> common_IsNil i = false -> outr who k = outr who' k.
  Proof.
    unfold outr. intros H N. inversion H as [j Lf|t p s Fp Hp T|j m d es Hi|j a l ks Hi]; subst; try reflexivity.
    f_equal. cbn [refusals]. destruct (fate_of X i) as [j|e|] eqn:Fi; try reflexivity. f_equal.
    destruct i as [|s|t [p|]|m|[m|]|a|[a|]|x|[x|]|l|l|[l|]|[l|]|e0|[[|e0|te e0]|]|n|b|[b|]|[n|]|n [d|]]; cbn in Lf, N; try discriminate;
      cbn [fate_of] in Fi; try discriminate Fi; try (injection Fi as <-; reflexivity);
      try (injection Fi as <-; match goal with |- context [x_is_array X ?t] => destruct (x_is_array X t) end; reflexivity).
    - destruct (x_is_array X TErrs); [injection Fi as <-; reflexivity|]. destruct (error_messages l); discriminate.
    - destruct (str_eqb n foreign); [discriminate|]. destruct (str_eqb n (lit "exec.ExitError")); [discriminate|].
      destruct (_ || _); [discriminate|]. injection Fi as <-. reflexivity.
  Qed.

  Lemma key_cases f m x v i k : map_GetValue h m x = Ok (Some v) -> rd_val h v = Ok i -> holds_obj w F i k ->
    (forall who, child (clone_says X f h) who i v = outr who k) -> clone_says X f h KVal v = outr (lit "Value") k ->
    clone_key_says X (clone_says X f h) h m x = outr (lit "Value") k.
  Proof.
    intros G R H C V. unfold clone_key_says, map_is, map_via, map_IsNull, value_is. unfold map_GetValue in *.
    destruct (rd_map h m) as [mo| | |]; try discriminate G. cbn [rbind] in *. injection G as G.
    destruct (tbl_get (m_tbl mo) x) as [o|]; [subst o|discriminate G]. rewrite !R. cbn [rbind].
    destruct (common_IsNil i) eqn:N; cbn [rbind]; [exact V|]. rewrite ?R. cbn [rbind].
    unfold child in C. rewrite (who_nil i k _ (lit "Map") H N) in V |- *.
    destruct (common_IsMap (common_GetType X i)) eqn:Im; [apply C|]. destruct (common_IsArray X (common_GetType X i)) eqn:Ia; [apply C|]. exact V.
  Qed.

  Lemma clone_out :
    (forall i k (_ : holds_obj w F i k), exists n, forall f, n <= f ->
       (forall who v, rd_val h v = Ok i -> child (clone_says X f h) who i v = outr who k)
       /\ (forall m who, i = IMap m \/ i = IPMap (Some m) -> clone_says X f h KMap m = outr who k)
       /\ (forall a who, i = IArr a \/ i = IPArr (Some a) -> clone_says X f h KArr a = outr who k))
    /\ (forall o k (_ : holds_value w F o k), exists n, forall f, n <= f ->
       clone_elem_says X (clone_says X f h) h o = outl (is_none k || crashes X k) (refusals X (lit "Array") k)
       /\ (forall m x, map_GetValue h m x = Ok o -> clone_key_says X (clone_says X f h) h m x = outr (lit "Value") k)
       /\ (forall v, o = Some v -> clone_says X f h KVal v = outr (lit "Value") k))
    /\ (forall l ks (_ : holds_elems w F l ks), exists n, forall f, n <= f ->
       Forall2 (fun o k => clone_elem_says X (clone_says X f h) h o = outl (is_none k || crashes X k) (refusals X (lit "Array") k)) l ks)
    /\ (forall l ks (_ : holds_members w F l ks), exists n, forall f, n <= f ->
       Forall2 (fun ko xk => forall m, map_GetValue h m (fst ko) = Ok (snd ko) ->
         clone_key_says X (clone_says X f h) h m (fst ko) = outr (lit "Value") (snd xk)) l ks).
  Proof.
    apply holds_mutind.
    - intros i Lf. exists 0. intros f _. split; [intros; now apply leaf_child|].
      split; intros ? ? [-> | ->]; discriminate Lf.
    - intros t p s Fp V T. exists 0. intros f _. split; [|split; intros ? ? [E|E]; discriminate].
      intros who v R. apply (im_var _ _ I), rd_ptr_iff in V. unfold child, clone_plain_says, clone_plain, common_GetType.
      cbn [common_IsNil andb static_type common_IsMap common_IsArray]. unfold bind, mlift, deref. rewrite V. cbn [rbind]. subst t.
      assert (stype_eqb (stype_of s) (stype_of s) = true) as ->. { destruct s as [| |[]|[]]; reflexivity. } reflexivity.
    - intros i m d es Hi Fm Hm He (n & IH). exists (S n).
      assert (Q : forall f who, n <= f -> clone_says X (S f) h KMap m = outr who (HMap es)).
      { intros f who L. specialize (IH f L). cbn [clone_says]. unfold clone_members_say, map_GetKeys.
        pose proof Hm as Hm'. apply (im_map _ _ I) in Hm as (mo & H & EK & _ & N & G). apply rd_map_iff in H. rewrite H. cbn [rbind]. rewrite EK.
        assert (K' : Forall2 (fun k xk => clone_key_says X (clone_says X f h) h m k = outl (crashes X (snd xk)) (refusals X (lit "Value") (snd xk))) (dict_keys d) es).
        { assert (Q : forall k o, In (k, o) d -> map_GetValue h m k = Ok o).
          { intros k o Ho. unfold map_GetValue. rewrite H. cbn [rbind]. rewrite G. apply dict_In_get in Ho; auto. now rewrite Ho. }
          clear - IH Q. induction IH as [|[k o] xk d es Ko K IH]; [constructor|]. cbn [dict_keys map fst]. constructor.
          - apply Ko. cbn. apply Q. now left.
          - apply IH. intros k' o' Ho. apply Q. now right. }
        exact (items_out _ (fun xk => crashes X (snd xk)) (fun xk => refusals X (lit "Value") (snd xk)) _ _ K'). }
      intros [|f] L; [lia|]. assert (Lf : n <= f) by lia. split; [|split].
      + intros who v R.  unfold child, clone_map_says, value_GetMap. rewrite R. destruct Hi as [-> | ->]; apply Q; exact Lf.
      + intros m' who E. assert (m' = m) as -> by (destruct Hi as [-> | ->], E as [E|E]; congruence). now apply Q.
      + intros a who [E|E]; destruct Hi as [-> | ->]; discriminate.
    - intros i a l ks Hi Fa Ha He (n & IH). exists (S n).
      assert (Q : forall f who, n <= f -> clone_says X (S f) h KArr a = outr who (HArr ks)).
      { intros f who L. specialize (IH f L). cbn [clone_says]. unfold clone_elems_say, arr_GetValues.
        apply (im_arr _ _ I) in Ha as [Ha _]. apply rd_arr_iff in Ha. rewrite Ha. cbn [rbind].
        exact (items_out _ (fun k => is_none k || crashes X k) (refusals X (lit "Array")) _ _ IH). }
      intros [|f] L; [lia|]. assert (Lf : n <= f) by lia. split; [|split].
      + intros who v R. unfold child, clone_arr_says, value_GetArray. rewrite R. destruct Hi as [-> | ->]; apply Q; exact Lf.
      + intros m who [E|E]; destruct Hi as [-> | ->]; discriminate.
      + intros a' who E. assert (a' = a) as -> by (destruct Hi as [-> | ->], E as [E|E]; congruence). now apply Q.
    - exists 0. intros f _. split; [reflexivity|]. split; [|discriminate]. intros m x G.
      unfold clone_key_says, map_is, map_via, map_IsNull. unfold map_GetValue in *. destruct (rd_map h m) as [mo| | |]; try discriminate G.
      cbn [rbind] in *. injection G as G. destruct (tbl_get (m_tbl mo) x) as [[v|]|]; try discriminate G; reflexivity.
    - intros v i k Fv Hv Ho (n & IH). exists (S n). intros [|f] L; [lia|].
      apply (im_val _ _ I) in Hv. apply rd_val_iff in Hv.
      destruct (IH f ltac:(lia)) as [C0 _]. destruct (IH (S f) ltac:(lia)) as [C1 _].
      assert (V : clone_says X (S f) h KVal v = outr (lit "Value") k).
      { cbn [clone_says]. unfold clone_value_says, value_GetType, value_GetObject. rewrite Hv. cbn [rbind]. exact (C0 (lit "Value") v Hv). }
      assert (Nn : is_none k = false) by (destruct Ho; reflexivity). split; [|split].
      + rewrite Nn. unfold clone_elem_says, value_GetType. rewrite Hv. cbn [rbind orb]. specialize (C1 (lit "Array") v Hv). unfold child in C1.
        destruct (common_IsMap (common_GetType X i)) eqn:Im; [exact C1|]. destruct (common_IsArray X (common_GetType X i)) eqn:Ia; [exact C1|].
        cbn [clone_says]. unfold clone_value_says, value_GetType, value_GetObject. rewrite Hv. cbn [rbind]. rewrite Im, Ia. exact C1.
      + intros m x G. eapply key_cases; eauto.
      + intros v' E. injection E as <-. exact V.
    - exists 0. intros f _. constructor.
    - intros o k l ks _ (n & Ho) _ (m & Hl). exists (n + m). intros f L. constructor; [apply Ho|apply Hl]; lia.
    - exists 0. intros f _. constructor.
    - intros x o k l ks _ (n & Ho) _ (m & Hl). exists (n + m). intros f L. constructor; [|apply Hl; lia].
      cbn. intros m' G. destruct (Ho f ltac:(lia)) as (_ & K & _). now apply K.
  Qed.
End C.

Lemma refusals_rejects X who k : length (refusals X who k) = length (rejects X k).
Proof.
  revert who. induction k as [|i|s|l IH|l IH] using content_ind'; intros who; cbn [refusals rejects]; try reflexivity.
  - destruct (fate_of X i); reflexivity.
  - induction IH as [|k l Hk _ IH]; [reflexivity|]. cbn [flat_map]. now rewrite !app_length, Hk, IH.
  - induction IH as [|k l Hk _ IH]; [reflexivity|]. cbn [flat_map]. now rewrite !app_length, Hk, IH.
Qed.
