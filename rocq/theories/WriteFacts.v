(** * The text of any content *)
From Coq Require Import Ascii String List NArith ZArith Bool Lia.
From Verif Require Import GoStr StrLemmas GoNum NumLemmas GoFloat Heap Common ValueModel ArrayModel MapModel JsonModel
  SpecDict DictLemmas SpecWorld Inv World Reach SpecNum SpecFloat FloatFacts SpecDoc RepFacts SpecToken SpecRender RenderFacts ShowFacts RoundFacts
  SpecClone SpecHistory CloneFacts SpecWrite.
Import ListNotations.
Local Open Scope nat_scope.

Lemma content_ind' (P : content -> Prop) :
  P HNone -> (forall i, P (HLeaf i)) -> (forall s, P (HVar s)) ->
  (forall l, Forall P l -> P (HArr l)) -> (forall l, Forall (fun xk => P (snd xk)) l -> P (HMap l)) ->
  forall k, P k.
Proof.
  intros H1 H2 H3 H4 H5. fix IH 1. intros [|i|s|l|l].
  - exact H1.
  - apply H2.
  - apply H3.
  - apply H4. induction l; constructor; auto.
  - apply H5. induction l as [|[x k] l IHl]; constructor; cbn; auto.
Qed.

Definition out_of (r : option (str * nat)) : res (str * list err) :=
  match r with Some (t, n) => Ok (t, repeat EUnsupported n) | None => Panic end.
Fixpoint all_of (l : list (option (str * nat))) : option (list str * nat) :=
  match l with
  | [] => Some ([], 0)
  | r :: l => match r, all_of l with
              | Some (t, n), Some (ts, c) => Some (t :: ts, n + c)
              | _, _ => None
              end
  end.

Lemma named_In n l : existsb (str_eqb n) l = true <-> In n l.
Proof.
  rewrite existsb_exists. split.
  - intros (x & H & E). now destruct (str_eqb_spec n x) as [->|].
  - intros H. exists n. split; auto. now destruct (str_eqb_spec n n).
Qed.

Section W.
  Context (X : ext).

  Definition dump_leaf (i : iface) : option (str * nat) :=
    match i with
    | INil => Some (lit "null", 0)
    | IScal s => Some (scalar_json s, 0)
    | IErr s => Some (quote s, 0)
    | IPErr (Some e) => Some (quote (pointer_text e), 0)
    | IErrs l | IPErrs (Some l) =>
        Some ([c_ls] ++ commas (map (fun e => text_or_hole (error_text e)) l) ++ [c_rs], holes l)
    | IStrs l | IPStrs (Some l) => Some ([c_ls] ++ commas (map quote l) ++ [c_rs], 0)
    | ITime (Some t) => Some (quotes (x_time X t), 0)
    | IFunc _ => Some (quotes (func_text false), 0)
    | IPFunc (Some _) => Some (quotes (func_text true), 0)
    | IPFunc None => if x_typed_nil X then Some (lit "null", 0) else Some (quotes (func_text true), 0)
    | IOther n d => if match d with None => x_typed_nil X | Some _ => false end then Some (lit "null", 0)
                    else if existsb (str_eqb n) written_by_name then Some (quotes n, 0)
                    else if str_eqb n (lit "*url.Error") && match d with None => true | Some _ => false end then None
                    else if existsb (str_eqb n) written_as_error then Some (quote (x_sprint X (IOther n d)), 0)
                    else Some ([], 1)
    | IVal _ | IPVal (Some _) | ITimeV _ => Some ([], 1)
    | IPVal None => if x_typed_nil X then Some (lit "null", 0) else Some ([], 1)
    | _ => if x_typed_nil X then Some (lit "null", 0) else None
    end.

  Fixpoint dump (k : content) : option (str * nat) :=
    match k with
    | HNone => Some (lit "null", 0)
    | HLeaf i => dump_leaf i
    | HVar s => Some (scalar_json s, 0)
    | HArr l => match all_of (map dump l) with
                | Some (ts, n) => Some ([c_ls] ++ commas ts ++ [c_rs], n)
                | None => None
                end
    | HMap l => match all_of (map (fun xk => dump (snd xk)) l) with
                | Some (ts, n) =>
                    Some ([c_lb] ++ commas (map (fun kt => quote (fst kt) ++ [c_col] ++ snd kt) (combine (map fst l) ts)) ++ [c_rb], n)
                | None => None
                end
    end.

  (** ** The function and the specification *)
  Lemma quoted_spec s : quoted s = quote s. Proof. symmetry. apply quote_quoted. Qed.
  Lemma scalar_shows s : proper_scalar (x_is64 X) s -> shows (DScal s) (scalar_json s).
  Proof. intros P. apply (shows_render (x_is64 X) (DScal s)). now constructor. Qed.

  Lemma dump_leaf_spec i t n : leaf i -> proper_content X (HLeaf i) -> dump_leaf i = Some (t, n) -> writes X (HLeaf i) t n.
  Proof.
    intros Lf P E. inversion P as [|? Ps| | |]; subst. unfold leaf in Lf.
    destruct i as [|s|ty [p|]|m|[m|]|a|[a|]|v|[v|]|l|l|[l|]|[l|]|s|[s|]|tm|fn|[fn|]|[tm|]|nm [d|]]; cbn [refers] in Lf; try discriminate Lf;
      cbn [dump_leaf] in E; try (injection E as <- <-); try (destruct (x_typed_nil X) eqn:T; try discriminate; injection E as <- <-).
    all: try (now apply wr_no_text; cbn).
    all: try (apply wr_leaf; apply wl_pointer; [exact T|exact Logic.I]).
    all: try (apply wr_leaf; constructor; auto; fail).
    - apply wr_leaf. apply wl_scal. apply scalar_shows. auto.
    - apply wr_errors. now left.
    - apply wr_errors. now right.
    - apply wr_leaf. apply wl_pfunc. left. discriminate.
    - apply wr_leaf. apply wl_pfunc. now right.
    - rewrite andb_false_r in E. assert (Cn : counts X (Some d)) by (left; discriminate).
      destruct (existsb (str_eqb nm) written_by_name) eqn:N; [|destruct (existsb (str_eqb nm) written_as_error) eqn:N'];
        injection E as <- <-.
      + apply wr_leaf. apply wl_named; auto. now apply named_In.
      + apply wr_leaf. apply wl_foreign_error; auto; [now apply named_In|left; discriminate].
      + apply wr_no_text. cbn [no_text]. rewrite <- !named_In. repeat split; auto; congruence.
    - destruct (x_typed_nil X) eqn:T.
      { injection E as <- <-. apply wr_leaf. apply wl_pointer; [exact T|exact Logic.I]. }
      assert (Cn : counts X (@None nat)) by (right; exact T). rewrite andb_true_r in E.
      destruct (existsb (str_eqb nm) written_by_name) eqn:N.
      + injection E as <- <-. apply wr_leaf. apply wl_named; auto. now apply named_In.
      + destruct (str_eqb_spec nm (lit "*url.Error")) as [|Nu]; [discriminate|].
        destruct (existsb (str_eqb nm) written_as_error) eqn:N'; injection E as <- <-.
        * apply wr_leaf. apply wl_foreign_error; auto. now apply named_In.
        * apply wr_no_text. cbn [no_text]. rewrite <- !named_In. repeat split; auto; congruence.
  Qed.

  (** Contents as they occur: leaves are leaves. *)
  Inductive leafy : content -> Prop :=
  | lf_none : leafy HNone
  | lf_leaf i : leaf i -> leafy (HLeaf i)
  | lf_var s : leafy (HVar s)
  | lf_arr l : Forall leafy l -> leafy (HArr l)
  | lf_map l : Forall (fun xk => leafy (snd xk)) l -> leafy (HMap l).
  Lemma holds_leafy w F :
    (forall i k (_ : holds_obj w F i k), leafy k) /\ (forall o k (_ : holds_value w F o k), leafy k)
    /\ (forall l ks (_ : holds_elems w F l ks), Forall leafy ks)
    /\ (forall l ks (_ : holds_members w F l ks), Forall (fun xk => leafy (snd xk)) ks).
  Proof. apply holds_mutind; intros; try (constructor; auto; fail); auto. Qed.

  Lemma all_writes l : Forall (fun k => forall t n, dump k = Some (t, n) -> writes X k t n) l ->
    forall ts n, all_of (map dump l) = Some (ts, n) -> writes_all X l ts n.
  Proof.
    induction 1 as [|k l Hk _ IH]; cbn [map all_of]; intros ts n E; [injection E as <- <-; constructor|].
    destruct (dump k) as [[t c]|] eqn:D; [|discriminate]. destruct (all_of (map dump l)) as [[us d]|]; [|discriminate].
    injection E as <- <-. constructor; auto.
  Qed.
  Lemma dump_spec k : leafy k -> proper_content X k -> forall t n, dump k = Some (t, n) -> writes X k t n.
  Proof.
    induction k as [|i|s|l IH|l IH] using content_ind'; intros Lf P t n E; cbn [dump] in E.
    - injection E as <- <-. constructor.
    - inversion Lf; subst. now apply dump_leaf_spec.
    - injection E as <- <-. inversion P; subst. constructor. now apply scalar_shows.
    - destruct (all_of (map dump l)) as [[ts c]|] eqn:A; [|discriminate]. injection E as <- <-. constructor. apply all_writes; auto.
      inversion Lf as [| | |? Fl|]; inversion P as [| | |? Fp|]; subst. rewrite Forall_forall in *. auto.
    - destruct (all_of (map (fun xk => dump (snd xk)) l)) as [[ts c]|] eqn:A; [|discriminate]. injection E as <- <-. constructor. apply all_writes.
      + inversion Lf as [| | | |? Fl]; inversion P as [| | | |? Fp]; subst. rewrite Forall_forall in *.
        intros k Hk. apply in_map_iff in Hk as (xk & <- & Hk). auto.
      + now rewrite map_map.
  Qed.

  Lemma all_none l : all_of l = None <-> In None l.
  Proof.
    induction l as [|r l IH]; cbn [all_of]; [split; [discriminate|intros []]|].
    destruct r as [[t n]|].
    - destruct (all_of l) as [[ts c]|]; cbn [In].
      + split; [discriminate|]. intros [E|E]; [discriminate|]. apply IH in E. discriminate.
      + split; auto. intros _. right. now apply IH.
    - cbn. split; auto.
  Qed.
  Lemma dump_panics k : leafy k -> dump k = None <-> panics X k.
  Proof.
    induction k as [|i|s|l IH|l IH] using content_ind'; intros Lf; cbn [dump].
    - split; [discriminate|]. intros H. inversion H.
    - split.
      + intros E. inversion Lf as [|? Li| | |]; subst. unfold leaf in Li.
        destruct i as [|s|ty [p|]|m|[m|]|a|[a|]|v|[v|]|l|l|[l|]|[l|]|s|[s|]|tm|fn|[fn|]|[tm|]|nm [d|]]; cbn [refers] in Li; try discriminate Li;
          cbn [dump_leaf] in E; try discriminate; try (destruct (x_typed_nil X) eqn:T; try discriminate).
        all: try (apply pa_leaf; [exact T|exact Logic.I|discriminate|discriminate|discriminate]).
        1,2: rewrite andb_false_r in E;
          destruct (existsb (str_eqb nm) written_by_name), (existsb (str_eqb nm) written_as_error); discriminate.
        apply pa_leaf; [exact T|exact Logic.I|discriminate|discriminate|]. intros n d Q. injection Q as <- <-.
          rewrite andb_true_r in E. destruct (str_eqb_spec nm (lit "*url.Error")) as [|Nu]; auto.
          destruct (existsb (str_eqb nm) written_by_name), (existsb (str_eqb nm) written_as_error); discriminate.
      + intros H. inversion H as [? T N V U W| |]; subst.
        destruct i as [|s|ty [p|]|m|[m|]|a|[a|]|v|[v|]|l|l|[l|]|[l|]|s|[s|]|tm|fn|[fn|]|[tm|]|nm [d|]]; try contradiction; cbn [dump_leaf]; rewrite T; try congruence.
        now rewrite (W nm None eq_refl).
    - split; [discriminate|]. intros H. inversion H.
    - assert (Q : all_of (map dump l) = None <-> panics X (HArr l)).
      { rewrite all_none, in_map_iff. inversion Lf as [| | |? Fl|]; subst. rewrite Forall_forall in IH, Fl. split.
        - intros (k & D & Hk). apply (pa_arr X k); auto. apply IH; auto.
        - intros H. inversion H as [|k ? Hk Pk|]; subst. exists k. split; auto. apply IH; auto. }
      destruct (all_of (map dump l)) as [[ts c]|]; [|tauto]. split; [discriminate|]. intros H. apply Q in H. discriminate.
    - assert (Q : all_of (map (fun xk => dump (snd xk)) l) = None <-> panics X (HMap l)).
      { rewrite all_none, in_map_iff. inversion Lf as [| | | |? Fl]; subst. rewrite Forall_forall in IH, Fl. split.
        - intros ([x k] & D & Hk). apply (pa_map X x k); auto. apply (IH _ Hk); auto.
        - intros H. inversion H as [| |x k ? Hk Pk]; subst. exists (x, k). split; auto. apply (IH _ Hk); auto. }
      destruct (all_of (map (fun xk => dump (snd xk)) l)) as [[ts c]|]; [|tauto]. split; [discriminate|]. intros H. apply Q in H. discriminate.
  Qed.

  (** ** The model and the function *)
  Lemma repeat_plus {A} (x : A) n m : repeat x n ++ repeat x m = repeat x (n + m).
  Proof. symmetry. apply repeat_app. Qed.

  Lemma items_all {A} (conv : A -> res (str * list err)) l rs :
    Forall2 (fun x r => conv x = out_of r) l rs ->
    json_items conv l = match all_of rs with Some (ts, n) => Ok (commas ts, repeat EUnsupported n) | None => Panic end.
  Proof.
    induction 1 as [|x r l rs Hx H IH]; [reflexivity|]. cbn [json_items all_of]. rewrite Hx. unfold out_of.
    destruct r as [[t n]|]; [|reflexivity]. cbn [rbind]. rewrite IH. destruct (all_of rs) as [[ts c]|] eqn:Ea; [|reflexivity].
    cbn [rbind fst snd]. rewrite repeat_plus, commas_cons. do 2 f_equal. f_equal.
    destruct H as [|y r2 l rs Hy H]; [injection Ea as <- <-; reflexivity|].
    cbn [all_of] in Ea. destruct r2 as [[t2 n2]|]; [|discriminate]. destruct (all_of rs) as [[us d]|]; [|discriminate].
    injection Ea as <- <-. reflexivity.
  Qed.

  Lemma members_all conv t ks rs : escape_ok X ->
    Forall2 (fun k r => conv (IPVal (match tbl_get t k with Some o => o | None => None end)) = out_of r) ks rs ->
    json_members conv X t ks = match all_of rs with
      | Some (ts, n) => Ok (commas (map (fun kt => quote (fst kt) ++ [c_col] ++ snd kt) (combine ks ts)), repeat EUnsupported n, true)
      | None => Panic end.
  Proof.
    intros E. induction 1 as [|k r ks rs Hk H IH]; [reflexivity|]. cbn [json_members all_of]. rewrite E, Hk. unfold out_of.
    destruct r as [[u n]|]; [|reflexivity]. cbn [rbind]. rewrite IH. destruct (all_of rs) as [[ts c]|] eqn:Ea; [|reflexivity].
    cbn [rbind fst snd combine map]. rewrite repeat_plus, commas_cons, quote_esc. change (escape_quotes k) with (esc k).
    do 3 f_equal. rewrite <- !app_assoc. cbn [app]. do 6 f_equal.
    destruct H as [|y r2 ks rs Hy H]; [injection Ea as <- <-; reflexivity|].
    cbn [all_of] in Ea. destruct r2 as [[t2 n2]|]; [|discriminate]. destruct (all_of rs) as [[us d]|]; [|discriminate].
    injection Ea as <- <-. reflexivity.
  Qed.

  Section H.
    Context (h : heap) (w : world) (F : nat -> Prop) (E : escape_ok X) (I : impl h w).

    Lemma arr_all conv a l rs : w_arr w a = Some l -> Forall2 (fun o r => conv (IPVal o) = out_of r) l rs ->
      arr_json conv h a = match all_of rs with Some (ts, n) => Ok ([c_ls] ++ commas ts ++ [c_rs], repeat EUnsupported n) | None => Panic end.
    Proof.
      intros H K. apply (im_arr _ _ I) in H as [H _]. apply rd_arr_iff in H. unfold arr_json. rewrite H. cbn [rbind].
      rewrite (items_all (fun o => conv (IPVal o)) l rs K). destruct K as [|o r l rs Ko K]; [reflexivity|].
      destruct (all_of (r :: rs)) as [[ts n]|]; reflexivity.
    Qed.
    Lemma map_all conv m d rs : w_map w m = Some d ->
      Forall2 (fun ko r => conv (IPVal (snd ko)) = out_of r) d rs ->
      map_json conv X h m = match all_of rs with
        | Some (ts, n) => Ok ([c_lb] ++ commas (map (fun kt => quote (fst kt) ++ [c_col] ++ snd kt) (combine (map fst d) ts)) ++ [c_rb], repeat EUnsupported n)
        | None => Panic end.
    Proof.
      intros H K. apply (im_map _ _ I) in H as (mo & H & EK & _ & N & G). apply rd_map_iff in H.
      unfold map_json. rewrite H. cbn [rbind]. rewrite EK.
      assert (K' : Forall2 (fun k r => conv (IPVal (match tbl_get (m_tbl mo) k with Some o => o | None => None end)) = out_of r) (dict_keys d) rs).
      { assert (Q : forall k o, In (k, o) d -> tbl_get (m_tbl mo) k = Some o).
        { intros k o Ho. rewrite G. now apply dict_In_get. }
        clear - K Q. induction K as [|[k o] r d rs Ko K IH]; [constructor|]. cbn [dict_keys map fst]. constructor.
        - rewrite (Q k o) by now left. exact Ko.
        - apply IH. intros k' o' Ho. apply Q. now right. }
      rewrite (members_all conv (m_tbl mo) (dict_keys d) rs E K'). unfold dict_keys in *.
      destruct d as [|[k o] d]; [inversion K; subst; reflexivity|]. cbn [map fst].
      destruct (all_of rs) as [[ts n]|]; reflexivity.
    Qed.

    Lemma errors_written l :
      json_items (fun e => Ok (error_json e)) l
      = Ok (commas (map (fun e => text_or_hole (error_text e)) l), repeat EUnsupported (holes l)).
    Proof.
      rewrite (items_all (fun e => Ok (error_json e)) l
                 (map (fun e => Some (text_or_hole (error_text e), match error_text e with Some _ => 0 | None => 1 end)) l)).
      - assert (Q : all_of (map (fun e => Some (text_or_hole (error_text e), match error_text e with Some _ => 0 | None => 1 end)) l)
                    = Some (map (fun e => text_or_hole (error_text e)) l, holes l)).
        { unfold holes. induction l as [|e l IH]; [reflexivity|]. cbn [map all_of filter]. rewrite IH.
          destruct (error_text e); reflexivity. }
        now rewrite Q.
      - clear. induction l as [|e l IH]; constructor; auto. cbn [out_of]. destruct e as [|s|n s]; cbn [error_json error_text]; rewrite ?quoted_spec; try reflexivity.
        change error_types with written_as_error. destruct (existsb (str_eqb n) written_as_error); rewrite ?quoted_spec; reflexivity.
    Qed.

    Lemma conv_leaf f i : leaf i -> json_held (conv_json f X h) X h i = out_of (dump_leaf i).
    Proof.
      unfold leaf. intros Lf. unfold json_held, common_GetType.
      destruct i as [|s|ty [p|]|m|[m|]|a|[a|]|v|[v|]|l|l|[l|]|[l|]|s|[s|]|tm|fn|[fn|]|[tm|]|nm [d|]]; cbn [refers] in Lf; try discriminate Lf;
        cbn [common_IsNil static_type andb dump_leaf]; rewrite ?errors_written, ?quoted_items, ?quoted_spec; try reflexivity;
        try (destruct (x_typed_nil X); reflexivity).
      - change named_types with written_by_name. change error_types with written_as_error. rewrite !andb_false_r.
        destruct (existsb (str_eqb nm) written_by_name), (existsb (str_eqb nm) written_as_error); cbn [out_of]; rewrite ?quoted_spec; reflexivity.
      - destruct (x_typed_nil X); [reflexivity|].
        change named_types with written_by_name. change error_types with written_as_error. rewrite !andb_true_r.
        destruct (existsb (str_eqb nm) written_by_name), (str_eqb nm (lit "*url.Error")), (existsb (str_eqb nm) written_as_error);
          cbn [out_of]; rewrite ?quoted_spec; reflexivity.
    Qed.

    Lemma conv_holds :
      (forall i k (_ : holds_obj w F i k), exists n, forall f, n <= f -> json_held (conv_json f X h) X h i = out_of (dump k))
      /\ (forall o k (_ : holds_value w F o k), exists n, forall f, n <= f -> conv_json f X h (IPVal o) = out_of (dump k))
      /\ (forall l ks (_ : holds_elems w F l ks), exists n, forall f, n <= f ->
            Forall2 (fun o r => conv_json f X h (IPVal o) = out_of r) l (map dump ks))
      /\ (forall l ks (_ : holds_members w F l ks), exists n, forall f, n <= f ->
            Forall2 (fun ko r => conv_json f X h (IPVal (snd ko)) = out_of r) l (map (fun xk => dump (snd xk)) ks)).
    Proof.
      apply holds_mutind.
      - intros i Lf. exists 0. intros f _. now apply conv_leaf.
      - intros t p s Fp V T. exists 0. intros f _. unfold json_held, common_GetType. cbn.
        apply (im_var _ _ I), rd_ptr_iff in V. rewrite V. cbn. subst t.
        assert (stype_eqb (stype_of s) (stype_of s) = true) as ->. { destruct s as [| |[]|[]]; reflexivity. } reflexivity.
      - intros i m d es Hi Fm Hm He (n & IH). exists n. intros f L. specialize (IH f L).
        assert (json_held (conv_json f X h) X h i = map_json (conv_json f X h) X h m) as ->. { destruct Hi as [-> | ->]; reflexivity. }
        rewrite (map_all _ m d _ Hm IH). cbn [dump].
        assert (map fst d = map fst es) as ->. { clear - He. induction He; cbn; congruence. }
        destruct (all_of _) as [[ts c]|]; reflexivity.
      - intros i a l ks Hi Fa Ha He (n & IH). exists n. intros f L. specialize (IH f L).
        assert (json_held (conv_json f X h) X h i = arr_json (conv_json f X h) h a) as ->. { destruct Hi as [-> | ->]; reflexivity. }
        rewrite (arr_all _ a l _ Ha IH). cbn [dump]. destruct (all_of _) as [[ts c]|]; reflexivity.
      - exists 1. intros [|f] L; [lia|]. reflexivity.
      - intros v i k Fv Hv _ (n & IH). exists (S n). intros [|f] L; [lia|].
        rewrite (conv_json_value X h w I f v i Hv). apply IH. lia.
      - exists 0. intros f _. constructor.
      - intros o k l ks _ (n & Ho) _ (m & Hl). exists (n + m). intros f L. constructor; [apply Ho|apply Hl]; lia.
      - exists 0. intros f _. constructor.
      - intros x o k l ks _ (n & Ho) _ (m & Hl). exists (n + m). intros f L. constructor; [apply Ho|apply Hl]; lia.
    Qed.
  End H.

  (** ** Results *)
  Definition json_of (fuel : nat) (h : heap) (kd : ckind) (l : nat) (b : str) : res (option str * list err) :=
    match kd with
    | KMap => map_ToJSONString fuel X h l (Some b)
    | KArr => arr_ToJSONString fuel X h l (Some b)
    | KVal => r <-r conv_json fuel X h (IPVal (Some l)) ;; Ok (Some (b ++ fst r), snd r)
    end.

  Lemma json_dump h F kd l k b : reachable X h -> escape_ok X -> content_at h F kd l k ->
    exists n, forall fuel, n <= fuel ->
      json_of fuel h kd l b = match dump k with Some (t, c) => Ok (Some (b ++ t), repeat EUnsupported c) | None => Panic end.
  Proof.
    intros R E C. pose proof (view_impl h (reachable_Inv _ _ R)) as I. pose proof (conv_holds h (view h) F E I) as (Ho & Hv & _).
    destruct kd; cbn [content_at json_of] in *.
    - destruct (Hv _ _ C) as (n & Q). exists n. intros f L. rewrite (Q f L). destruct (dump k) as [[t c]|]; reflexivity.
    - destruct (Ho _ _ C) as (n & Q). exists n. intros f L. cbn [map_ToJSONString].
      specialize (Q f L). change (json_held (conv_json f X h) X h (IMap l)) with (map_json (conv_json f X h) X h l) in Q. rewrite Q.
      destruct (dump k) as [[t c]|]; reflexivity.
    - destruct (Ho _ _ C) as (n & Q). exists n. intros f L. cbn [arr_ToJSONString].
      specialize (Q f L). change (json_held (conv_json f X h) X h (IArr l)) with (arr_json (conv_json f X h) h l) in Q. rewrite Q.
      destruct (dump k) as [[t c]|]; reflexivity.
  Qed.

  Lemma content_leafy h F kd l k : content_at h F kd l k -> leafy k.
  Proof. destruct (holds_leafy (view h) F) as (Ho & Hv & _). destruct kd; cbn; eauto. Qed.

  Lemma json_writes h F kd l k b : reachable X h -> escape_ok X -> content_at h F kd l k -> proper_content X k -> ~ panics X k ->
    exists t c n, writes X k t c
      /\ forall fuel, n <= fuel -> json_of fuel h kd l b = Ok (Some (b ++ t), repeat EUnsupported c).
  Proof.
    intros R E C P N. destruct (json_dump h F kd l k b R E C) as (n & Q). pose proof (content_leafy _ _ _ _ _ C) as Lf.
    destruct (dump k) as [[t c]|] eqn:D.
    - exists t, c, n. split; [now apply dump_spec|exact Q].
    - exfalso. apply N. now apply dump_panics.
  Qed.
  Lemma json_panics h F kd l k b : reachable X h -> escape_ok X -> content_at h F kd l k -> panics X k ->
    exists n, forall fuel, n <= fuel -> json_of fuel h kd l b = Panic.
  Proof.
    intros R E C P. destruct (json_dump h F kd l k b R E C) as (n & Q). pose proof (content_leafy _ _ _ _ _ C) as Lf.
    apply dump_panics in P; auto. rewrite P in Q. eauto.
  Qed.
  Lemma json_never_panics h F kd l k b : x_typed_nil X = true -> reachable X h -> escape_ok X -> content_at h F kd l k ->
    exists r n, forall fuel, n <= fuel -> json_of fuel h kd l b = Ok r.
  Proof.
    intros T R E C. destruct (json_dump h F kd l k b R E C) as (n & Q). pose proof (content_leafy _ _ _ _ _ C) as Lf.
    destruct (dump k) as [[t c]|] eqn:D; [eauto|]. apply dump_panics in D; auto. exfalso. clear - D T.
    induction D; auto; congruence.
  Qed.
End W.

(** ** One text *)
Lemma names_apart n : In n written_by_name -> In n written_as_error -> False.
Proof. intros A B. cbn in A, B. repeat destruct A as [<-|A]; try contradiction; repeat destruct B as [B|B]; try discriminate; contradiction. Qed.
Lemma nil_pointer_counts X i (d : option nat) : (exists n, i = IOther n d) \/ i = IPFunc d -> x_typed_nil X = true -> nil_pointer i -> counts X d -> False.
Proof. intros E T N [Q|Q]; [|congruence]. destruct E as [[n ->] | ->], d; auto. Qed.
Lemma writes_leaf_fun X i t u : writes_leaf X i t -> writes_leaf X i u -> t = u.
Proof.
  intros A B. inversion A; subst; inversion B; subst; try reflexivity; try contradiction; try (exfalso; eapply names_apart; eauto; fail);
    try (exfalso; eapply nil_pointer_counts; eauto; fail).
  all: repeat match goal with H : _ = IStrs _ \/ _ |- _ => destruct H end; subst; try contradiction; try congruence.
  all: try (eapply shows_fun; eauto; fail).
Qed.
Lemma leaf_not_no_text X i t : writes_leaf X i t -> no_text X i -> False.
Proof.
  intros A B. inversion A; subst; cbn [no_text] in B; try contradiction.
  - destruct i as [|s|ty [p|]|m|[m|]|a|[a|]|v|[v|]|l|l|[l|]|[l|]|s|[s|]|tm|fn|[fn|]|[tm|]|nm [d|]]; cbn in *; try contradiction; try congruence.
    destruct B as [[Q|Q] _]; congruence.
  - match goal with H : _ \/ _ |- _ => destruct H end; subst; contradiction.
  - tauto.
  - tauto.
Qed.
Lemma errors_not_leaf X i l t : i = IErrs l \/ i = IPErrs (Some l) -> writes_leaf X i t -> False.
Proof.
  intros E A. inversion A; subst; destruct E as [E|E]; try discriminate E; subst; try contradiction;
    match goal with H : _ \/ _ |- _ => destruct H; discriminate end.
Qed.
Lemma errors_not_no_text X i l : i = IErrs l \/ i = IPErrs (Some l) -> no_text X i -> False.
Proof. intros [-> | ->]; cbn; auto. Qed.
Scheme writes_ind2 := Induction for writes Sort Prop with writes_all_ind2 := Induction for writes_all Sort Prop.
Combined Scheme writes_mutind from writes_ind2, writes_all_ind2.
Lemma writes_fun_all X :
  (forall k t n (_ : writes X k t n), forall u m, writes X k u m -> t = u /\ n = m)
  /\ (forall l ts n (_ : writes_all X l ts n), forall us m, writes_all X l us m -> ts = us /\ n = m).
Proof.
  apply writes_mutind.
  - intros u m H. inversion H; subst; auto.
  - intros i t W u m H. inversion H; subst; [|exfalso; eapply leaf_not_no_text; eauto|exfalso; eapply errors_not_leaf; eauto].
    split; auto. eapply writes_leaf_fun; eauto.
  - intros i N u m H. inversion H; subst; [exfalso; eapply leaf_not_no_text; eauto|auto|exfalso; eapply errors_not_no_text; eauto].
  - intros l i E u m H. inversion H as [|? ? W|? N|l' ? E'| | |]; subst;
      [exfalso; eapply errors_not_leaf; eauto|exfalso; eapply errors_not_no_text; eauto|].
    assert (l' = l) as -> by (destruct E as [-> | ->], E' as [E'|E']; congruence). auto.
  - intros s t W u m H. inversion H; subst. split; auto. eapply shows_fun; eauto.
  - intros l ts n _ IH u m H. inversion H; subst. destruct (IH _ _ H1). subst. auto.
  - intros l ts n _ IH u m H. inversion H; subst. destruct (IH _ _ H1). subst. auto.
  - intros us m H. inversion H; subst; auto.
  - intros k t n l ts c _ IH1 _ IH2 us m H. inversion H as [|? ? ? ? ? ? Wk Wl]; subst. destruct (IH1 _ _ Wk), (IH2 _ _ Wl). subst. auto.
Qed.
Lemma writes_fun X k t n u m : writes X k t n -> writes X k u m -> t = u /\ n = m.
Proof. intros A. now apply (proj1 (writes_fun_all X)). Qed.
