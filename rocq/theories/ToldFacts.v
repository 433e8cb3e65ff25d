(** * The texts of the errors of ToJSONString and of the conversions (proofs for C81) *)
From Coq Require Import Ascii String List NArith ZArith Bool Lia.
From Verif Require Import GoStr StrLemmas GoNum NumLemmas GoFloat Heap Common ValueModel ArrayModel MapModel JsonModel GetterModel
  SpecDict DictLemmas SpecWorld Inv World Reach SpecNum SpecFloat FloatFacts SpecDoc RepFacts SpecToken SpecRender RenderFacts ShowFacts RoundFacts
  SpecClone SpecHistory CloneFacts SpecWrite WriteFacts SpecConvert ConvertFacts SaysModel SpecSays ToldModel SpecTold.
Import ListNotations.
Local Open Scope nat_scope.

Definition outl (bad : bool) (ms : list str) : res (list str) := if bad then Panic else Ok ms.

Lemma items_out {A B} (says : A -> res (list str)) (c : B -> bool) (r : B -> list str) l ks :
  Forall2 (fun x k => says x = outl (c k) (r k)) l ks ->
  items_say says l = outl (existsb c ks) (flat_map r ks).
Proof.
  induction 1 as [|x k l ks Hx _ IH]; [reflexivity|]. cbn [items_say existsb flat_map]. rewrite Hx, IH. unfold outl.
  destruct (c k); [reflexivity|]. destruct (existsb c ks); reflexivity.
Qed.

Section W.
  Context (E : str -> str) (X : ext).

  Definition leaf_complaints (i : iface) : list str :=
    match i with
    | IErrs l | IPErrs (Some l) => map not_written (unknown_errors l)
    | _ => match dump_leaf X i with Some (_, S _) => [not_written (go_type X i)] | _ => [] end
    end.
  Fixpoint complaints (k : content) : list str :=
    match k with
    | HNone | HVar _ => []
    | HLeaf i => leaf_complaints i
    | HArr l => flat_map complaints l
    | HMap l => flat_map (fun xk => complaints (snd xk)) l
    end.
  Definition bad (k : content) : bool := match dump X k with None => true | _ => false end.

  Lemma all_of_bad {A} (g : A -> option (str * nat)) l :
    match all_of (map g l) with None => true | _ => false end = existsb (fun x => match g x with None => true | _ => false end) l.
  Proof.
    induction l as [|x l IH]; [reflexivity|]. cbn [map all_of existsb]. rewrite <- IH.
    destruct (g x) as [[t n]|]; [|reflexivity]. destruct (all_of (map g l)) as [[ts c]|]; reflexivity.
  Qed.
  Lemma bad_arr l : bad (HArr l) = existsb bad l.
  Proof.
    unfold bad. cbn [dump]. rewrite <- (all_of_bad (dump X)). destruct (all_of (map (dump X) l)) as [[ts c]|]; reflexivity.
  Qed.
  Lemma bad_map l : bad (HMap l) = existsb (fun xk => bad (snd xk)) l.
  Proof.
    unfold bad. cbn [dump]. rewrite <- (all_of_bad (fun xk => dump X (snd xk))).
    destruct (all_of (map (fun xk => dump X (snd xk)) l)) as [[ts c]|]; reflexivity.
  Qed.

  (** ** Model and function *)
  Lemma members_out says t ks cs : escape_ok X ->
    Forall2 (fun k c => says (IPVal (match tbl_get t k with Some o => o | None => None end)) = outl (bad c) (complaints c)) ks cs ->
    members_say E X says t ks = outl (existsb bad cs) (flat_map complaints cs).
  Proof.
    intros Es. induction 1 as [|k c ks cs Hk _ IH]; [reflexivity|]. cbn [members_say existsb flat_map]. rewrite Es, Hk, IH. unfold outl.
    destruct (bad c); [reflexivity|]. destruct (existsb bad cs); reflexivity.
  Qed.

  Lemma errors_out l : flat_map error_says l = map not_written (unknown_errors l).
  Proof.
    unfold unknown_errors. induction l as [|e l IH]; [reflexivity|]. cbn [flat_map]. rewrite map_app, IH. f_equal.
    destruct e as [|s|n s]; cbn [error_says]; try reflexivity. change error_types with written_as_error.
    destruct (existsb (str_eqb n) written_as_error); reflexivity.
  Qed.

  Section H.
    Context (h : heap) (w : world) (F : nat -> Prop) (Es : escape_ok X) (I : impl h w).

    Lemma leaf_out rec i : leaf i -> held_says E X rec h i = outl (bad (HLeaf i)) (leaf_complaints i).
    Proof.
      unfold leaf, bad. intros Lf. cbn [dump].
      destruct i as [|s|ty [p|]|m|[m|]|a|[a|]|v|[v|]|l|l|[l|]|[l|]|s|[s|]|tm|fn|[fn|]|[tm|]|nm [d|]]; cbn [refers] in Lf; try discriminate Lf;
        unfold leaf_complaints; cbn [dump_leaf]; unfold held_says, go_type, common_GetType; cbn [common_IsNil static_type andb];
        rewrite ?errors_out; try reflexivity; try (destruct (x_typed_nil X); reflexivity).
      - change named_types with written_by_name. change error_types with written_as_error. rewrite !andb_false_r.
        destruct (existsb (str_eqb nm) written_by_name), (existsb (str_eqb nm) written_as_error); reflexivity.
      - destruct (x_typed_nil X); [reflexivity|].
        change named_types with written_by_name. change error_types with written_as_error. rewrite !andb_true_r.
        destruct (existsb (str_eqb nm) written_by_name), (str_eqb nm (lit "*url.Error")), (existsb (str_eqb nm) written_as_error); reflexivity.
    Qed.

    Lemma conv_out :
      (forall i k (_ : holds_obj w F i k), exists n, forall f, n <= f ->
         held_says E X (conv_says E X f h) h i = outl (bad k) (complaints k))
      /\ (forall o k (_ : holds_value w F o k), exists n, forall f, n <= f ->
         conv_says E X f h (IPVal o) = outl (bad k) (complaints k))
      /\ (forall l ks (_ : holds_elems w F l ks), exists n, forall f, n <= f ->
         Forall2 (fun o k => conv_says E X f h (IPVal o) = outl (bad k) (complaints k)) l ks)
      /\ (forall l ks (_ : holds_members w F l ks), exists n, forall f, n <= f ->
         Forall2 (fun ko k => conv_says E X f h (IPVal (snd ko)) = outl (bad k) (complaints k)) l (map snd ks)).
    Proof.
      apply holds_mutind.
      - intros i Lf. exists 0. intros f _. now apply leaf_out.
      - intros t p s Fp V T. exists 0. intros f _. unfold held_says, common_GetType. cbn.
        apply (im_var _ _ I), rd_ptr_iff in V. rewrite V. cbn. subst t.
        assert (stype_eqb (stype_of s) (stype_of s) = true) as ->. { destruct s as [| |[]|[]]; reflexivity. } reflexivity.
      - intros i m d es Hi Fm Hm He (n & IH). exists n. intros f L. specialize (IH f L).
        assert (held_says E X (conv_says E X f h) h i = map_json_says E X (conv_says E X f h) h m) as ->. { destruct Hi as [-> | ->]; reflexivity. }
        apply (im_map _ _ I) in Hm as (mo & H & EK & _ & N & G). apply rd_map_iff in H.
        unfold map_json_says. rewrite H. cbn [rbind]. rewrite EK.
        assert (K' : Forall2 (fun k c => conv_says E X f h (IPVal (match tbl_get (m_tbl mo) k with Some o => o | None => None end))
                                         = outl (bad c) (complaints c)) (dict_keys d) (map snd es)).
        { assert (Q : forall k o, In (k, o) d -> tbl_get (m_tbl mo) k = Some o).
          { intros k o Ho. rewrite G. now apply dict_In_get. }
          clear - IH Q. induction IH as [|[k o] r d rs Ko K IH]; [constructor|]. cbn [dict_keys map fst]. constructor.
          - rewrite (Q k o) by now left. exact Ko.
          - apply IH. intros k' o' Ho. apply Q. now right. }
        rewrite (members_out _ _ _ _ Es K'). rewrite bad_map. cbn [complaints].
        clear. induction es as [|xk es IH]; [reflexivity|]. cbn [map existsb flat_map]. unfold outl in *.
        destruct (bad (snd xk)); [reflexivity|]. cbn [orb].
        destruct (existsb bad (map snd es)), (existsb (fun xk => bad (snd xk)) es); try discriminate IH; try reflexivity.
        injection IH as ->. reflexivity.
      - intros i a l ks Hi Fa Ha He (n & IH). exists n. intros f L. specialize (IH f L).
        assert (held_says E X (conv_says E X f h) h i = arr_json_says (conv_says E X f h) h a) as ->. { destruct Hi as [-> | ->]; reflexivity. }
        apply (im_arr _ _ I) in Ha as [Ha _]. apply rd_arr_iff in Ha. unfold arr_json_says. rewrite Ha. cbn [rbind].
        rewrite (items_out (fun o => conv_says E X f h (IPVal o)) bad complaints l ks IH). now rewrite bad_arr.
      - exists 1. intros [|f] L; [lia|]. reflexivity.
      - intros v i k Fv Hv _ (n & IH). exists (S n). intros [|f] L; [lia|].
        apply (im_val _ _ I) in Hv. apply rd_val_iff in Hv. cbn [conv_says common_IsNil]. rewrite Hv. cbn [rbind]. apply IH. lia.
      - exists 0. intros f _. constructor.
      - intros o k l ks _ (n & Ho) _ (m & Hl). exists (n + m). intros f L. constructor; [apply Ho|apply Hl]; lia.
      - exists 0. intros f _. constructor.
      - intros x o k l ks _ (n & Ho) _ (m & Hl). exists (n + m). intros f L. constructor; [apply Ho|apply Hl]; lia.
    Qed.
  End H.

  (** ** Function and specification *)
  Lemma leaf_complains i : leaf i -> proper_content X (HLeaf i) -> bad (HLeaf i) = false -> complains X (HLeaf i) (leaf_complaints i).
  Proof.
    intros Lf P B. unfold bad in B. cbn [dump] in B. destruct (dump_leaf X i) as [[t n]|] eqn:D; [|discriminate B]. clear B.
    pose proof (dump_leaf_spec X i t n Lf P D) as W.
    inversion W as [|? ? Wl|? N|l ? Ei| | |]; subst.
    - assert (Q : leaf_complaints i = []).
      { unfold leaf_complaints. rewrite D. destruct i as [|s|ty [p|]|m|[m|]|a|[a|]|v|[v|]|l|l|[l|]|[l|]|s|[s|]|tm|fn|[fn|]|[tm|]|nm [d|]]; try reflexivity;
          exfalso; refine (errors_not_leaf X _ l _ _ Wl); auto. }
      rewrite Q. eapply co_leaf; eauto.
    - assert (Q : leaf_complaints i = [not_written (go_type X i)]).
      { unfold leaf_complaints. rewrite D. destruct i as [|s|ty [p|]|m|[m|]|a|[a|]|v|[v|]|l|l|[l|]|[l|]|s|[s|]|tm|fn|[fn|]|[tm|]|nm [d|]]; try reflexivity;
          cbn [no_text] in N; contradiction. }
      rewrite Q. now apply co_no_text.
    - assert (Q : leaf_complaints i = map not_written (unknown_errors l)) by (destruct Ei as [-> | ->]; reflexivity).
      rewrite Q. now apply co_errors.
  Qed.

  Lemma complaints_spec k : leafy k -> proper_content X k -> bad k = false -> complains X k (complaints k).
  Proof.
    induction k as [|i|s|l IH|l IH] using content_ind'; intros Lf P B; cbn [complaints].
    - constructor.
    - inversion Lf; subst. now apply leaf_complains.
    - constructor.
    - constructor. rewrite bad_arr in B. inversion Lf as [| | |? Fl|]; inversion P as [| | |? Fp|]; subst. clear Lf P.
      induction l as [|k l IHl]; [constructor|]. cbn [existsb] in B. apply orb_false_elim in B as [B1 B2].
      inversion IH; inversion Fl; inversion Fp; subst. cbn [flat_map]. constructor; auto.
    - constructor. rewrite bad_map in B. inversion Lf as [| | | |? Fl]; inversion P as [| | | |? Fp]; subst. clear Lf P.
      induction l as [|k l IHl]; [constructor|]. cbn [existsb] in B. apply orb_false_elim in B as [B1 B2].
      inversion IH; inversion Fl; inversion Fp; subst. cbn [flat_map map]. constructor; auto.
  Qed.
End W.

Scheme complains_ind2 := Induction for complains Sort Prop with complains_all_ind2 := Induction for complains_all Sort Prop.
Combined Scheme complains_mutind from complains_ind2, complains_all_ind2.

Lemma complains_fun_all X :
  (forall k ms (_ : complains X k ms), forall ns, complains X k ns -> ms = ns)
  /\ (forall l ms (_ : complains_all X l ms), forall ns, complains_all X l ns -> ms = ns).
Proof.
  apply complains_mutind.
  - intros ns H. now inversion H.
  - intros i t W ns H. inversion H; subst; auto; [exfalso; eapply leaf_not_no_text; eauto|exfalso; eapply errors_not_leaf; eauto].
  - intros i N ns H. inversion H; subst; auto; [exfalso; eapply leaf_not_no_text; eauto|exfalso; eapply errors_not_no_text; eauto].
  - intros l i Ei ns H. inversion H as [|? ? W|? N|l' ? Ei'| | |]; subst;
      [exfalso; eapply errors_not_leaf; eauto|exfalso; eapply errors_not_no_text; eauto|].
    destruct Ei as [-> | ->], Ei' as [E'|E']; congruence.
  - intros s ns H. now inversion H.
  - intros l ms _ IH ns H. inversion H; subst. auto.
  - intros l ms _ IH ns H. inversion H; subst. auto.
  - intros ns H. now inversion H.
  - intros k m l ms _ IH1 _ IH2 ns H. inversion H; subst. f_equal; auto.
Qed.
Lemma complains_fun X k ms ns : complains X k ms -> complains X k ns -> ms = ns.
Proof. intros A. exact (proj1 (complains_fun_all X) k ms A ns). Qed.

Lemma unknown_holes l : length (unknown_errors l) = holes l.
Proof.
  unfold unknown_errors, holes. induction l as [|e l IH]; [reflexivity|]. cbn [flat_map filter]. rewrite app_length, IH.
  destruct e as [|s|n s]; cbn [error_text]; try reflexivity. destruct (existsb (str_eqb n) written_as_error); reflexivity.
Qed.

Lemma complains_count_all X :
  (forall k ms (_ : complains X k ms), forall t n, writes X k t n -> length ms = n)
  /\ (forall l ms (_ : complains_all X l ms), forall ts n, writes_all X l ts n -> length ms = n).
Proof.
  apply complains_mutind.
  - intros t n H. now inversion H.
  - intros i u W t n H. inversion H; subst; auto; [exfalso; eapply leaf_not_no_text; eauto|exfalso; eapply errors_not_leaf; eauto].
  - intros i N t n H. inversion H; subst; auto; [exfalso; eapply leaf_not_no_text; eauto|exfalso; eapply errors_not_no_text; eauto].
  - intros l i Ei t n H. rewrite map_length, unknown_holes. inversion H as [|? ? W|? N|l' ? Ei'| | |]; subst;
      [exfalso; eapply errors_not_leaf; eauto|exfalso; eapply errors_not_no_text; eauto|].
    destruct Ei as [-> | ->], Ei' as [E'|E']; congruence.
  - intros s t n H. now inversion H.
  - intros l ms _ IH t n H. inversion H; subst. eauto.
  - intros l ms _ IH t n H. inversion H; subst. eauto.
  - intros ts n H. now inversion H.
  - intros k m l ms _ IH1 _ IH2 ts n H. inversion H; subst. rewrite app_length. f_equal; eauto.
Qed.
Lemma complains_count X k ms t n : complains X k ms -> writes X k t n -> length ms = n.
Proof. intros A. exact (proj1 (complains_count_all X) k ms A t n). Qed.

(** ** As many texts as errors, in every state and with every fuel *)
Section C.
  Context (E : str -> str) (X : ext) (h : heap).
  Definition count {A} (r : res (A * list err)) : res nat := rmap (fun q => length (snd q)) r.

  Lemma items_count {A} (conv : A -> res (str * list err)) (says : A -> res (list str)) l :
    (forall x, rmap (@length str) (says x) = count (conv x)) ->
    rmap (@length str) (items_say says l) = count (json_items conv l).
  Proof.
    intros H. induction l as [|x l IH]; [reflexivity|]. cbn [items_say json_items]. specialize (H x).
    destruct (says x) as [ms| | |], (conv x) as [[t e]| | |]; cbn in H; try discriminate H; try reflexivity. injection H as H.
    cbn [rbind]. destruct (items_say says l) as [ms'| | |], (json_items conv l) as [[t' e']| | |]; cbn in IH; try discriminate IH; try reflexivity.
    injection IH as IH. cbn. now rewrite !app_length, H, IH.
  Qed.
  Lemma members_count conv says t ks :
    (forall x, rmap (@length str) (says x) = count (conv x)) ->
    rmap (@length str) (members_say E X says t ks) = rmap (fun q => length (snd (fst q))) (json_members conv X t ks).
  Proof.
    intros H. induction ks as [|k ks IH]; [reflexivity|]. cbn [members_say json_members]. destruct (x_escape X k); [|reflexivity].
    specialize (H (IPVal match tbl_get t k with Some o => o | None => None end)).
    destruct (says _) as [ms| | |], (conv _) as [[u e]| | |]; cbn in H; try discriminate H; try reflexivity. injection H as H.
    cbn [rbind]. destruct (members_say E X says t ks) as [ms'| | |], (json_members conv X t ks) as [[[t' e'] b]| | |]; cbn in IH; try discriminate IH; try reflexivity.
    injection IH as IH. cbn. now rewrite !app_length, H, IH.
  Qed.
  Lemma map_count conv says m : (forall x, rmap (@length str) (says x) = count (conv x)) ->
    rmap (@length str) (map_json_says E X says h m) = count (map_json conv X h m).
  Proof.
    intros H. unfold map_json_says, map_json. destruct (rd_map h m) as [mo| | |]; try reflexivity. cbn [rbind].
    pose proof (members_count conv says (m_tbl mo) (m_keys mo) H) as Q. destruct (m_keys mo) as [|k ks]; [reflexivity|].
    rewrite Q. destruct (json_members conv X (m_tbl mo) (k :: ks)) as [[[t e] b]| | |]; reflexivity.
  Qed.
  Lemma arr_count conv says a : (forall x, rmap (@length str) (says x) = count (conv x)) ->
    rmap (@length str) (arr_json_says says h a) = count (arr_json conv h a).
  Proof.
    intros H. unfold arr_json_says, arr_json. destruct (rd_arr h a) as [l| | |]; try reflexivity. cbn [rbind].
    pose proof (items_count (fun o => conv (IPVal o)) (fun o => says (IPVal o)) l (fun o => H (IPVal o))) as Q. destruct l as [|o l]; [reflexivity|].
    rewrite Q. destruct (json_items (fun o => conv (IPVal o)) (o :: l)) as [[t e]| | |]; reflexivity.
  Qed.
  Lemma error_count l : length (flat_map error_says l)
    = match json_items (fun e => Ok (error_json e)) l with Ok r => length (snd r) | _ => 0 end
    /\ exists r, json_items (fun e => Ok (error_json e)) l = Ok r.
  Proof.
    induction l as [|e l [IH [r Er]]]; [split; [reflexivity|eexists; reflexivity]|]. cbn [flat_map json_items]. rewrite Er in *. cbn [rbind].
    split; [|eexists; reflexivity]. rewrite !app_length, IH. cbn [snd]. rewrite app_length. f_equal.
    destruct e as [|s|n s]; try reflexivity. unfold error_says, error_json. destruct (existsb (str_eqb n) error_types); reflexivity.
  Qed.
  Lemma strings_count l : exists t, json_items (fun s => Ok (quoted s, [])) l = Ok (t, []).
  Proof. rewrite quoted_items. eauto. Qed.

  Lemma held_count conv says tv : (forall x, rmap (@length str) (says x) = count (conv x)) ->
    rmap (@length str) (held_says E X says h tv) = count (json_held conv X h tv).
  Proof.
    intros H. unfold held_says, json_held.
    assert (D : forall t, rmap (@length str) (o <-r deref h tv ;; match o with Some _ => Ok [] | None => Stuck end)
                = @count str (o <-r deref h tv ;; match o with Some s => Ok (t s, @nil err) | None => Stuck end)).
    { intros t. destruct (deref h tv) as [[s|]| | |]; reflexivity. }
    destruct (common_GetType X tv) eqn:Ty; try reflexivity; try apply D.
    all: try (destruct tv as [|s|ty [p|]|m|[m|]|a|[a|]|v|[v|]|l|l|[l|]|[l|]|s|[s|]|tm|fn|[fn|]|[tm|]|nm [d|]];
      try reflexivity; try (now apply map_count); try (now apply arr_count);
      try (destruct (error_count l) as [Q [r Er]]; rewrite Er in *; cbn [rbind rmap]; unfold count; cbn [rmap snd]; now rewrite Q);
      try (destruct (strings_count l) as [t ->]; reflexivity); fail).
    match goal with |- context [TOther ?nm] =>
      destruct (existsb (str_eqb nm) named_types); [reflexivity|]; destruct (str_eqb nm (lit "*url.Error") && common_IsNil tv); [reflexivity|];
      destruct (existsb (str_eqb nm) error_types); reflexivity end.
  Qed.

  Lemma conv_count f i : rmap (@length str) (conv_says E X f h i) = count (conv_json f X h i).
  Proof.
    revert i. induction f as [|f IH]; intros i; [reflexivity|]. cbn [conv_says conv_json]. destruct (common_IsNil i); [reflexivity|].
    destruct (match i with IVal v | IPVal (Some v) => rd_val h v | _ => Ok i end) as [tv| | |]; try reflexivity.
    cbn [rbind]. now apply held_count.
  Qed.
End C.
