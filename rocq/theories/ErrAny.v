(** * Errors of any type in lists (proofs for C66) *)
From Coq Require Import Ascii String List NArith ZArith Bool Lia.
From Verif Require Import GoStr GoNum GoFloat Heap Common ValueModel ArrayModel MapModel JsonModel ParserModel GetterModel
  SpecDict SpecNum SpecWorld Inv World Reach MapFacts SpecDoc SpecRender SpecClone SpecHistory CloneResults SpecWrite WriteFacts.
Import ListNotations.
Local Open Scope nat_scope.

Section E.
  Context (X : ext).

  Lemma dict_get_In es k (c : content) : dict_get es k = Some c -> exists x, In (x, c) es.
  Proof.
    induction es as [|[x c'] es IH]; cbn [dict_get]; [discriminate|].
    destruct (str_eqb x k); [intros [= <-]; eexists; now left|]. intros Q. destruct (IH Q) as [y Hy]. exists y. now right.
  Qed.

  Lemma holes_pos l n s : In (Typed n s) l -> ~ In n written_as_error -> 0 < holes l.
  Proof.
    unfold holes. intros I N. induction l as [|e l IH]; [contradiction|]. cbn [filter]. destruct I as [->|I].
    - cbn [error_text]. destruct (existsb (str_eqb n) written_as_error) eqn:E; [|cbn; lia]. apply named_In in E. contradiction.
    - specialize (IH I). destruct (match error_text e with None => true | _ => false end); cbn [length]; lia.
  Qed.

  Lemma error_list_written l t n : writes X (HLeaf (IErrs l)) t n ->
    t = [c_ls] ++ commas (map (fun e => text_or_hole (error_text e)) l) ++ [c_rs] /\ n = holes l.
  Proof.
    intros H. apply (writes_fun X _ _ _ _ _ H). apply wr_errors. now left.
  Qed.

  Lemma written_part ks ts n k : writes_all X ks ts n -> In k ks -> exists t c, writes X k t c /\ c <= n.
  Proof.
    induction 1 as [|k' t c l ts' c' W Wl IH]; [contradiction|]. intros [->|I].
    - exists t, c. split; auto. lia.
    - destruct (IH I) as (t' & c0 & W' & L). exists t', c0. split; auto. lia.
  Qed.

  Lemma unknown_error h F m es k l n s b :
    reachable X h -> escape_ok X -> holds_obj (view h) F (IMap m) (HMap es) -> proper_content X (HMap es) -> ~ panics X (HMap es) ->
    dict_get es k = Some (HLeaf (IErrs l)) -> In (Typed n s) l -> ~ In n written_as_error ->
    exists t c f, 0 < c /\ forall fuel, f <= fuel -> map_ToJSONString fuel X h m (Some b) = Ok (Some (b ++ t), repeat EUnsupported c).
  Proof.
    intros R Es H P Np G Il N. destruct (dict_get_In _ _ _ G) as [x I]. destruct (json_writes X h F KMap m _ b R Es H P Np) as (t & c & f & W & E).
    exists t, c, f. split; [|exact E]. inversion W as [| | | | | |? ts ? Wa]; subst.
    destruct (written_part _ _ _ (HLeaf (IErrs l)) Wa) as (t' & c' & W' & L).
    { apply in_map_iff. exists (x, HLeaf (IErrs l)). auto. }
    apply error_list_written in W' as [_ ->]. pose proof (holes_pos l n s Il N). lia.
  Qed.

  Lemma error_list_text h F m k l b :
    reachable X h -> escape_ok X -> holds_obj (view h) F (IMap m) (HMap [(k, HLeaf (IErrs l))]) ->
    exists f, forall fuel, f <= fuel ->
      map_ToJSONString fuel X h m (Some b)
      = Ok (Some (b ++ [c_lb] ++ quote k ++ [c_col]
                    ++ ([c_ls] ++ commas (map (fun e => text_or_hole (error_text e)) l) ++ [c_rs]) ++ [c_rb]),
            repeat EUnsupported (holes l)).
  Proof.
    intros R Es H. destruct (json_writes X h F KMap m _ b R Es H) as (t & c & f & W & E).
    { apply pc_map. constructor; [|constructor]. apply pc_leaf. intros s [=]. }
    { intros P. inversion P as [| |? c ? I Pc]; subst. destruct I as [[= <- <-]|[]]. inversion Pc as [? ? N| |]; subst. destruct N. }
    exists f. intros fuel Hf. specialize (E _ Hf). unfold json_of in E. rewrite E. clear E. inversion W as [| | | | | |? ts ? Wa]; subst.
    cbn [map snd] in Wa. inversion Wa as [|? t1 n1 ? ts1 c1 W1 W2]; subst. inversion W2; subst.
    apply error_list_written in W1 as [-> ->]. cbn [map fst snd combine commas]. rewrite Nat.add_0_r.
    cbn. repeat rewrite <- app_assoc. cbn. now repeat rewrite <- app_assoc.
  Qed.

  Lemma no_messages l : In NoError l <-> error_messages l = None.
  Proof.
    induction l as [|e l IH]; cbn [In error_messages]; [intuition discriminate|].
    destruct e as [|t|n t]; [intuition|..]; (destruct (error_messages l); [|intuition congruence]);
      (split; [intros [Q|Q]; [discriminate|apply IH in Q; discriminate]|discriminate]).
  Qed.

  Lemma clone_nil_error h F m es k l :
    reachable X h -> content_at h F KMap m (HMap es) -> dict_get es k = Some (HLeaf (IErrs l)) -> In NoError l -> x_is_array X TErrs = false ->
    exists f, forall fuel, f <= fuel -> clone fuel X KMap m h = Panic.
  Proof.
    intros R C G N A. destruct (dict_get_In _ _ _ G) as [x I]. apply (clone_panics X h F KMap m (HMap es) R C). cbn [crashes]. apply existsb_exists.
    exists (x, HLeaf (IErrs l)). split; auto. cbn [snd crashes fate_of]. rewrite A. apply no_messages in N. now rewrite N.
  Qed.

  Lemma members_get w F d es k c : holds_members w F d es -> dict_get es k = Some c ->
    exists o, dict_get d k = Some o /\ holds_value w F o c.
  Proof.
    induction 1 as [|x o k' l ks Hv Hm IH]; cbn [dict_get]; [discriminate|].
    destruct (str_eqb x k); [intros [= <-]; eauto|exact IH].
  Qed.

  Lemma leaf_at w F m es k i : holds_obj w F (IMap m) (HMap es) -> dict_get es k = Some (HLeaf i) -> SpecWorld.object_at w m k = Some i.
  Proof.
    intros H G. inversion H as [| |i' m' d ? Ei Fm W Hm|]; subst. destruct Ei as [[= <-]|]; [|discriminate].
    destruct (members_get _ _ _ _ _ _ Hm G) as (o & Gd & Hv). unfold SpecWorld.object_at, map_at. rewrite W. cbn [the]. rewrite Gd.
    inversion Hv as [|v j ? Fv Wv Ho]; subst. inversion Ho; subst. exact Wv.
  Qed.

  Lemma dict_get_copy es k c : dict_get es k = Some c -> dict_get (map (fun xk => (fst xk, copy X (snd xk))) es) k = Some (copy X c).
  Proof.
    induction es as [|[x c'] es IH]; cbn [dict_get map fst snd]; [discriminate|].
    destruct (str_eqb x k); [now intros [= <-]|exact IH].
  Qed.

  Lemma clone_errors n h F m es k l c h2 :
    reachable X h -> content_at h F KMap m (HMap es) -> dict_get es k = Some (HLeaf (IErrs l)) ->
    clone n X KMap m h = Ok (GVal c, h2) ->
    exists ms, error_messages l = Some ms
      /\ SpecWorld.object_at (view h2) c k = Some (IErrs (map (fun s => Plain (x_errorf X s)) ms)).
  Proof.
    intros R C G E. pose proof (content_exists h F KMap m (HMap es) C) as Ex.
    destruct (clone_returned X n h KMap m _ h2 R Ex E) as (_ & _ & k' & C' & Cr & Rj & C2 & _).
    assert (k' = HMap es) as -> by (eapply content_fun; eauto). cbn [copy] in C2.
    pose proof (leaf_at (view h2) (made_in h h2) c _ k _ C2 (dict_get_copy _ _ _ G)) as O.
    destruct (dict_get_In _ _ _ G) as [x I]. cbn [crashes rejects] in Cr, Rj.
    assert (crashes X (HLeaf (IErrs l)) = false) as Cl.
    { destruct (crashes X (HLeaf (IErrs l))) eqn:B; auto. rewrite <- Cr. symmetry. apply existsb_exists. eexists. split; [exact I|exact B]. }
    assert (rejects X (HLeaf (IErrs l)) = []) as Rl.
    { destruct (rejects X (HLeaf (IErrs l))) as [|e t] eqn:B; auto.
      assert (In e []) as []. rewrite <- Rj. apply in_flat_map. eexists. split; [exact I|]. cbn [snd]. rewrite B. now left. }
    cbn [crashes rejects fate_of] in Cl, Rl. cbn [copy fate_of] in O.
    destruct (x_is_array X TErrs); [discriminate|]. destruct (error_messages l) as [ms|]; [|discriminate].
    exists ms. auto.
  Qed.
End E.
