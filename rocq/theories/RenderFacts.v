(** * Serialisation of represented documents *)
From Coq Require Import Ascii String List NArith ZArith Bool Lia.
From Verif Require Import GoStr StrLemmas GoNum NumLemmas GoFloat Heap Common ValueModel ArrayModel MapModel JsonModel
  SpecDict DictLemmas SpecWorld Inv World Reach SpecNum SpecFloat FloatFacts SpecDoc RepFacts SpecToken SpecRender.
Import ListNotations.

Lemma doc_ind' (P : doc -> Prop) :
  P DNull -> (forall s, P (DScal s)) -> (forall s, P (DErr s)) -> (forall l, P (DTexts l)) ->
  (forall l, Forall P l -> P (DArr l)) ->
  (forall l, Forall (fun kd => P (snd kd)) l -> P (DMap l)) ->
  forall d, P d.
Proof.
  intros N S R T A M. fix IH 1. intros [|s|s|l|l|l]; [exact N | apply S | apply R | apply T | |].
  - apply A. revert l. fix IHl 1. intros [|d l]; constructor; [apply IH | apply IHl].
  - apply M. revert l. fix IHl 1. intros [|[k d] l]; constructor; [apply IH | apply IHl].
Qed.

(** ** The text, computed *)
Fixpoint render (d : doc) : str :=
  match d with
  | DNull => lit "null"
  | DScal s => scalar_json s
  | DErr s => quote s
  | DTexts l => [c_ls] ++ commas (map quote l) ++ [c_rs]
  | DArr l => [c_ls] ++ commas (map render l) ++ [c_rs]
  | DMap l => [c_lb] ++ commas (map (fun kd => quote (fst kd) ++ [c_col] ++ render (snd kd)) l) ++ [c_rb]
  end.

Lemma quote_quoted s : quote s = quoted s.
Proof.
  unfold quote, quoted. do 2 f_equal. change (escape_quotes s) with (esc s).
  induction s as [|c s IH]; [reflexivity|]. rewrite esc_cons. cbn [flat_map].
  now rewrite IH, Ascii.eqb_sym.
Qed.

Lemma quote_esc s : quote s = [c_dq] ++ esc s ++ [c_dq].
Proof. apply quote_quoted. Qed.

Lemma commas_cons x t : commas (x :: t) = x ++ (match t with [] => [] | _ => [c_com] end) ++ commas t.
Proof. destruct t; cbn; [now rewrite app_nil_r | reflexivity]. Qed.

Lemma json_items_ok {A} (conv : A -> res (str * list err)) f (l : list A) :
  Forall (fun x => conv x = Ok (f x, [])) l -> json_items conv l = Ok (commas (map f l), []).
Proof.
  induction 1 as [|x l Hx _ IH]; [reflexivity|]. cbn [json_items]. rewrite Hx. cbn [rbind]. rewrite IH. cbn [rbind fst snd].
  change (map f (x :: l)) with (f x :: map f l). rewrite commas_cons. destruct l; reflexivity.
Qed.

Lemma json_members_ok conv X (t : list (str * option loc)) f ks :
  escape_ok X ->
  Forall (fun k => conv (IPVal (match tbl_get t k with Some o => o | None => None end)) = Ok (f k, [])) ks ->
  json_members conv X t ks = Ok (commas (map (fun k => quote k ++ [c_col] ++ f k) ks), [], true).
Proof.
  intros E. induction 1 as [|k ks Hk _ IH]; [reflexivity|]. cbn [json_members].
  rewrite E, Hk. cbn [rbind fst snd]. rewrite IH. cbn [rbind fst snd map].
  do 3 f_equal. rewrite commas_cons, quote_esc. change (escape_quotes k) with (esc k).
  rewrite <- !app_assoc. cbn [app]. do 6 f_equal. destruct ks; reflexivity.
Qed.

(** ** The heap through its view *)
Section Conv.
  Context (X : ext) (h : heap) (w : world) (F : nat -> Prop).
  Context (E : escape_ok X) (I : impl h w).

  Lemma conv_json_value f v i : w_val w v = Some i ->
    conv_json (S f) X h (IPVal (Some v)) = json_held (conv_json f X h) X h i.
  Proof.
    intros H. apply (im_val _ _ I) in H. apply rd_val_iff in H. cbn [conv_json common_IsNil].
    rewrite H. reflexivity.
  Qed.

  Lemma quoted_items l : json_items (fun s => Ok (quoted s, [])) l = Ok (commas (map quote l), []).
  Proof.
    apply (json_items_ok (fun s => Ok (quoted s, []))). apply Forall_forall. intros x _. now rewrite quote_quoted.
  Qed.

  Lemma error_items l : json_items (fun e => Ok (error_json e)) (map Plain l) = Ok (commas (map quote l), []).
  Proof.
    rewrite <- quoted_items. induction l as [|s l IH]; [reflexivity|]. cbn [json_items map rbind error_json].
    rewrite IH. now destruct l.
  Qed.

  Lemma error_items_ok l : exists q, json_items (fun e => Ok (error_json e)) l = Ok q.
  Proof.
    induction l as [|e l [q IH]]; [eexists; reflexivity|]. cbn [json_items rbind]. rewrite IH. cbn [rbind]. eauto.
  Qed.

  Lemma arr_json_ok conv a l f : w_arr w a = Some l ->
    Forall (fun o => conv (IPVal o) = Ok (f o, [])) l ->
    arr_json conv h a = Ok ([c_ls] ++ commas (map f l) ++ [c_rs], []).
  Proof.
    intros H K. apply (im_arr _ _ I) in H as [H _]. apply rd_arr_iff in H. unfold arr_json. rewrite H. cbn [rbind].
    rewrite (json_items_ok (fun o => conv (IPVal o)) f l K). cbn [rbind fst snd]. destruct l; reflexivity.
  Qed.

  Lemma map_json_ok conv m d f : w_map w m = Some d ->
    Forall (fun k => conv (IPVal (the None (dict_get d k))) = Ok (f k, [])) (dict_keys d) ->
    map_json conv X h m = Ok ([c_lb] ++ commas (map (fun k => quote k ++ [c_col] ++ f k) (dict_keys d)) ++ [c_rb], []).
  Proof.
    intros H K. apply (im_map _ _ I) in H as (mo & H & EK & _ & _ & G). apply rd_map_iff in H.
    unfold map_json. rewrite H. cbn [rbind]. rewrite EK.
    rewrite (json_members_ok conv X (m_tbl mo) f (dict_keys d)); auto.
    - cbn [rbind fst snd]. destruct (dict_keys d); reflexivity.
    - eapply Forall_impl; [|exact K]. cbn. intros k Hk. rewrite G. unfold the in Hk. destruct (dict_get d k); auto.
  Qed.

  Lemma fuels_list {A} (P : nat -> A -> Prop) (l : list A) :
    (forall x, In x l -> exists n, forall f, n <= f -> P f x) -> exists n, forall f, n <= f -> Forall (P f) l.
  Proof.
    induction l as [|x l IH]; intros H.
    - exists 0. constructor.
    - destruct (H x) as [n Hn]; [now left|]. destruct IH as [m Hm]; [intros; apply H; now right|].
      exists (Nat.max n m). intros f L. constructor; [apply Hn | apply Hm]; lia.
  Qed.

  Lemma conv_rep :
    (forall i d (_ : rep_obj (x_typed_nil X) w F i d),
       exists n, forall f, n <= f -> json_held (conv_json f X h) X h i = Ok (render d, []))
    /\ (forall o d (_ : rep_value (x_typed_nil X) w F o d),
       exists n, forall f, n <= f -> conv_json f X h (IPVal o) = Ok (render d, []))
    /\ (forall l ds (_ : rep_elems (x_typed_nil X) w F l ds),
       exists n, forall f, n <= f -> Forall2 (fun o d => conv_json f X h (IPVal o) = Ok (render d, [])) l ds)
    /\ (forall l ds (_ : rep_members (x_typed_nil X) w F l ds),
       exists n, forall f, n <= f ->
         Forall2 (fun ko kd => fst ko = fst kd /\ conv_json f X h (IPVal (snd ko)) = Ok (render (snd kd), [])) l ds).
  Proof.
    apply rep_mutind.
    - exists 0. intros f _. unfold json_held, common_GetType. cbn. now destruct (x_typed_nil X).
    - intros i T N. exists 0. intros f _. unfold json_held, common_GetType. cbn in T. rewrite T.
      assert (common_IsNil i = true) as -> by (destruct i as [| |t []|?|[]|?|[]|?|[]| | |[?|]|[?|]| |[?|]| | |[?|]|[?|]|? [?|]]; auto). reflexivity.
    - intros s. exists 0. intros f _. reflexivity.
    - intros t p s Fp V T. exists 0. intros f _. unfold json_held, common_GetType. cbn.
      apply (im_var _ _ I), rd_ptr_iff in V. rewrite V. cbn. subst t.
      assert (stype_eqb (stype_of s) (stype_of s) = true) as ->. { destruct s as [| |[]|[]]; reflexivity. } reflexivity.
    - intros s. exists 0. intros f _. unfold json_held, common_GetType. cbn [common_IsNil static_type andb render].
      now rewrite quote_quoted.
    - intros e s Es. exists 0. intros f _. unfold json_held, common_GetType. cbn [common_IsNil static_type andb render].
      rewrite quote_quoted. destruct Es as [->|[n ->]]; reflexivity.
    - intros l. exists 0. intros f _. unfold json_held, common_GetType. cbn [common_IsNil static_type andb].
      rewrite ?error_items, ?quoted_items. reflexivity.
    - intros l. exists 0. intros f _. unfold json_held, common_GetType. cbn [common_IsNil static_type andb].
      rewrite ?error_items, ?quoted_items. reflexivity.
    - intros l. exists 0. intros f _. unfold json_held, common_GetType. cbn [common_IsNil static_type andb].
      rewrite ?error_items, ?quoted_items. reflexivity.
    - intros l. exists 0. intros f _. unfold json_held, common_GetType. cbn [common_IsNil static_type andb].
      rewrite ?error_items, ?quoted_items. reflexivity.
    - intros i m d es Hi Fm Hm R (n & IH). exists n. intros f L. specialize (IH f L).
      assert (json_held (conv_json f X h) X h i = map_json (conv_json f X h) X h m) as ->. { destruct Hi as [-> | ->]; reflexivity. }
      pose proof (im_map _ _ I m d) as [Hd _]. destruct (Hd Hm) as (mo & _ & _ & _ & N & _). clear Hd.
      rewrite (map_json_ok _ m d (fun k => match dict_get es k with Some x => render x | None => [] end) Hm).
      + do 2 f_equal. cbn [render]. do 3 f_equal.
        clear Hm R. revert N. unfold dict_ok.
        induction IH as [|[k o] [k' x] d es [Hk _] IH' IHl]; intros N; [reflexivity|]. cbn [fst snd] in *. subst k'.
        inversion N as [|? ? Nk N']; subst. cbn [dict_keys map fst snd].
        assert (dict_get ((k, x) :: es) k = Some x) as ->. { cbn. now rewrite str_eqb_refl. } f_equal.
        rewrite <- (IHl N'). apply map_ext_in. intros k' Hk'. cbn.
        destruct (str_eqb_spec k k') as [->|]; [contradiction | reflexivity].
      + apply Forall_forall. intros k Hk. pose proof (rep_members_get _ _ _ _ _ k R) as G.
        clear Hm R N. induction IH as [|[k' o] [k2 x] d es [Hk2 Ho] IH' IHl]; [contradiction|]. cbn [fst snd] in *. subst k2.
        cbn in Hk, G |- *. destruct (str_eqb_spec k' k) as [->|N]; [exact Ho|].
        destruct Hk as [Hk|Hk]; [contradiction|]. apply IHl; auto.
    - intros i a l ds Hi Fa Ha R (n & IH). exists n. intros f L. specialize (IH f L).
      assert (json_held (conv_json f X h) X h i = arr_json (conv_json f X h) h a) as ->. { destruct Hi as [-> | ->]; reflexivity. }
      rewrite (arr_json_ok _ a l (fun o => match conv_json f X h (IPVal o) with Ok r => fst r | _ => [] end) Ha).
      + cbn [render]. do 5 f_equal. clear Ha R. induction IH as [|o x l ds Ho IH' IHl]; [reflexivity|]. cbn [map].
        rewrite Ho, IHl. reflexivity.
      + clear Ha R. induction IH as [|o x l ds Ho IH' IHl]; constructor; auto. now rewrite Ho.
    - exists 1. intros [|f] L; [lia|]. reflexivity.
    - intros v i d Fv Hv R (n & IH). exists (S n). intros [|f] L; [lia|]. rewrite (conv_json_value f v i Hv). apply IH. lia.
    - exists 0. constructor.
    - intros o d l ds _ (n & Hn) _ (m & Hm). exists (Nat.max n m). intros f L. constructor; [apply Hn | apply Hm]; lia.
    - exists 0. constructor.
    - intros k o d l ds _ (n & Hn) _ (m & Hm). exists (Nat.max n m). intros f L.
      constructor; [split; [reflexivity|apply Hn] | apply Hm]; lia.
  Qed.

  Lemma map_json_rep m d : rep_obj (x_typed_nil X) w F (IMap m) d ->
    exists n, forall f, n <= f -> map_json (conv_json f X h) X h m = Ok (render d, []).
  Proof. intros R. apply conv_rep in R as (n & H). exists n. exact H. Qed.
  Lemma arr_json_rep m d : rep_obj (x_typed_nil X) w F (IArr m) d ->
    exists n, forall f, n <= f -> arr_json (conv_json f X h) h m = Ok (render d, []).
  Proof. intros R. apply conv_rep in R as (n & H). exists n. exact H. Qed.
End Conv.
