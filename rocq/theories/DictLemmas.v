(** * Lemmas about SpecDict.v and the list helpers of the model *)
From Coq Require Import Ascii String List NArith ZArith Bool Lia.
From Verif Require Import GoStr StrLemmas Heap ArrayModel MapModel SpecDict.
Import ListNotations.

Section D.
  Context {V : Type}.
  Implicit Types d : dict V.

  Lemma dict_get_In d k v : dict_get d k = Some v -> In (k, v) d.
  Proof.
    induction d as [|[k' v'] d IH]; cbn; intros H; [discriminate|].
    destruct (str_eqb_spec k' k); [left; congruence | auto].
  Qed.

  Lemma dict_get_None d k : dict_get d k = None <-> ~ In k (map fst d).
  Proof.
    induction d as [|[k' v'] d IH]; cbn; [tauto|].
    destruct (str_eqb_spec k' k).
    - split; [discriminate | tauto].
    - rewrite IH. tauto.
  Qed.

  Lemma dict_In_get d k v : dict_ok d -> In (k, v) d -> dict_get d k = Some v.
  Proof.
    unfold dict_ok. induction d as [|[k' v'] d IH]; cbn; intros N H; [tauto|].
    inversion N; subst. destruct H as [H|H].
    - inversion H; subst. now rewrite str_eqb_refl.
    - destruct (str_eqb_spec k' k); auto. subst.
      exfalso. apply H2. change k with (fst (k, v)). now apply in_map.
  Qed.

  Lemma dict_get_set d k v k2 :
    dict_get (dict_set d k v) k2 = if str_eqb k k2 then Some v else dict_get d k2.
  Proof.
    induction d as [|[k' v'] d IH]; cbn; auto.
    destruct (str_eqb_spec k' k); cbn.
    - subst. now destruct (str_eqb_spec k k2).
    - rewrite IH. destruct (str_eqb_spec k' k2), (str_eqb_spec k k2); congruence.
  Qed.

  Lemma dict_keys_set d k v :
    map fst (dict_set d k v) = if dict_has d k then map fst d else map fst d ++ [k].
  Proof.
    unfold dict_has. induction d as [|[k' v'] d IH]; cbn; auto.
    destruct (str_eqb_spec k' k); cbn; auto.
    rewrite IH. now destruct (dict_get d k).
  Qed.

  Lemma dict_ok_set d k v : dict_ok d -> dict_ok (dict_set d k v).
  Proof.
    unfold dict_ok. intros N. rewrite dict_keys_set. unfold dict_has.
    destruct (dict_get d k) eqn:E; auto.
    apply dict_get_None in E. rewrite <- (rev_involutive (map fst d ++ [k])).
    apply NoDup_rev. rewrite rev_app_distr. cbn. constructor; [now rewrite <- in_rev|].
    now apply NoDup_rev.
  Qed.

  Lemma dict_set_notin d k v : dict_get d k = None -> dict_set d k v = d ++ [(k, v)].
  Proof.
    induction d as [|[k' v'] d IH]; cbn; auto.
    destruct (str_eqb_spec k' k); [discriminate|]. intros H. now rewrite IH.
  Qed.

  Lemma dict_values_set_notin d k v :
    dict_get d k = None -> map snd (dict_set d k v) = map snd d ++ [v].
  Proof. intros H. rewrite dict_set_notin by auto. now rewrite map_app. Qed.

  Lemma find_index_dict d k :
    match find_index k (map fst d) with
    | Some n => dict_has d k = true /\ (n < length d)%nat
                /\ (forall v, map snd (dict_set d k v) = upd (map snd d) n v)
                /\ map fst (dict_remove d k) = remove_nth n (map fst d)
                /\ map snd (dict_remove d k) = remove_nth n (map snd d)
    | None => dict_has d k = false
    end.
  Proof.
    unfold dict_has. induction d as [|[k' v'] d IH]; cbn; auto.
    destruct (str_eqb_spec k' k); cbn.
    - subst. cbn. repeat split; auto; lia.
    - destruct (find_index k (map fst d)) as [n0|] eqn:E; auto.
      destruct IH as (H1 & H2 & H3 & H4 & H5). split; [auto|]. split; [lia|].
      unfold remove_nth in *. cbn.
      repeat split; [intros; now rewrite H3| now rewrite H4 | now rewrite H5].
  Qed.

  Lemma dict_remove_notin d k : dict_get d k = None -> dict_remove d k = d.
  Proof.
    induction d as [|[k' v'] d IH]; cbn; auto.
    destruct (str_eqb_spec k' k); [discriminate|]. intros H. now rewrite IH.
  Qed.

  Lemma dict_get_remove d k k2 :
    dict_ok d -> dict_get (dict_remove d k) k2 = if str_eqb k k2 then None else dict_get d k2.
  Proof.
    unfold dict_ok. induction d as [|[k' v'] d IH]; cbn; intros N.
    - now destruct (str_eqb k k2).
    - inversion N; subst. destruct (str_eqb_spec k' k).
      + subst. destruct (str_eqb_spec k k2); auto. subst. now apply dict_get_None.
      + cbn. rewrite IH by auto.
        destruct (str_eqb_spec k' k2), (str_eqb_spec k k2); congruence.
  Qed.

  Lemma dict_In_remove d k x : In x (dict_remove d k) -> In x d.
  Proof.
    induction d as [|[k' v'] d IH]; cbn; auto.
    destruct (str_eqb k' k); cbn; tauto.
  Qed.

  Lemma dict_ok_remove d k : dict_ok d -> dict_ok (dict_remove d k).
  Proof.
    unfold dict_ok. induction d as [|[k' v'] d IH]; cbn; auto.
    intros N. inversion N; subst. destruct (str_eqb k' k); auto.
    cbn. constructor; auto. intros H. apply H1.
    apply in_map_iff in H as ([a b] & E & H). apply dict_In_remove in H.
    apply in_map_iff. eauto.
  Qed.

  Lemma dict_has_keys d k : dict_has d k = true <-> In k (map fst d).
  Proof.
    unfold dict_has. destruct (dict_get d k) eqn:E.
    - split; auto. intros _. apply dict_get_In in E. change k with (fst (k, v)). now apply in_map.
    - apply dict_get_None in E. split; [discriminate | tauto].
  Qed.

  Lemma dict_set_In d k v x : In x (dict_set d k v) -> x = (k, v) \/ In x d.
  Proof.
    induction d as [|[k' v'] d IH]; cbn; [intuition congruence|].
    destruct (str_eqb_spec k' k); cbn; intros [H|H]; subst; auto.
    apply IH in H. tauto.
  Qed.

  Lemma dict_set_idem d k v : dict_get d k = Some v -> dict_set d k v = d.
  Proof.
    induction d as [|[k' v'] d IH]; cbn; [discriminate|].
    destruct (str_eqb_spec k' k); [congruence|]. intros H. now rewrite IH.
  Qed.

  Lemma dict_set_set d k v w : dict_set (dict_set d k v) k w = dict_set d k w.
  Proof.
    induction d as [|[k' v'] d IH]; cbn.
    - now rewrite str_eqb_refl.
    - destruct (str_eqb k' k) eqn:E; cbn; rewrite E; congruence.
  Qed.
End D.

Lemma dict_get_map {V W} (f : V -> W) (d : dict V) k :
  dict_get (map (fun kv => (fst kv, f (snd kv))) d) k = option_map f (dict_get d k).
Proof.
  induction d as [|[k' v'] d IH]; cbn; auto. now destruct (str_eqb k' k).
Qed.

(** [internal_map] is a table read through its keys. *)
Lemma tbl_get_dict t k : tbl_get t k = dict_get t k.
Proof. induction t as [|[k' v] t IH]; cbn; auto. Qed.

Lemma tbl_get_del t k k2 :
  tbl_get (tbl_del t k) k2 = if str_eqb k k2 then None else tbl_get t k2.
Proof.
  unfold tbl_del. induction t as [|[k' v'] t IH]; cbn.
  - now destruct (str_eqb k k2).
  - destruct (str_eqb_spec k' k); cbn; rewrite IH; subst.
    + now destruct (str_eqb k k2).
    + destruct (str_eqb_spec k' k2), (str_eqb_spec k k2); congruence.
Qed.

Lemma tbl_get_put t k v k2 :
  tbl_get (tbl_put t k v) k2 = if str_eqb k k2 then Some v else tbl_get t k2.
Proof.
  unfold tbl_put. cbn. destruct (str_eqb k k2) eqn:E; auto. now rewrite tbl_get_del, E.
Qed.

(** ** Lists *)

Lemma upd_length {A} (l : list A) n x : length (upd l n x) = length l.
Proof. revert n; induction l as [|y l IH]; intros [|n]; cbn; auto. Qed.

Lemma nth_error_upd {A} (l : list A) n x m :
  (n < length l)%nat ->
  nth_error (upd l n x) m = if Nat.eqb n m then Some x else nth_error l m.
Proof.
  revert n m; induction l as [|y l IH]; intros [|n] [|m] H; cbn in *; try lia; auto.
  apply IH. lia.
Qed.

Lemma upd_list_set {A} (l : list A) n x : upd l n x = list_set l n x.
Proof. revert n; induction l as [|y l IH]; intros [|n]; cbn; auto; now rewrite IH. Qed.

Lemma remove_nth_list_remove {A} (l : list A) n : remove_nth n l = list_remove l n.
Proof.
  revert n; induction l as [|y l IH]; intros [|n]; cbn; auto.
  unfold remove_nth in *. cbn. now rewrite <- IH.
Qed.

Lemma In_upd {A} (l : list A) n x y : In y (upd l n x) -> y = x \/ In y l.
Proof. revert n; induction l as [|z l IH]; intros [|n]; cbn; intuition. apply IH in H0. tauto. Qed.

Lemma In_remove_nth {A} (l : list A) n y : In y (remove_nth n l) -> In y l.
Proof.
  unfold remove_nth. intros H. apply in_app_iff in H as [H|H].
  - rewrite <- (firstn_skipn n l). apply in_app_iff. auto.
  - rewrite <- (firstn_skipn (S n) l). apply in_app_iff. auto.
Qed.
