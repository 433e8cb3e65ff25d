(** * More consequences of the refinement: positions of keys, arrays as lists *)
From Coq Require Import Ascii String List NArith ZArith Bool Lia.
From Verif Require Import GoStr StrLemmas GoNum GoFloat Heap Common ValueModel ArrayModel MapModel
  SpecDict DictLemmas SpecWorld Inv World Reach MapFacts GetterFacts ObjFacts.
Import ListNotations.
Local Open Scope Z_scope.

Lemma keys_positions X h m k i :
  reachable X h -> has (w_map (view h)) m -> ok_object (view h) i ->
  exists ks h1 h2,
    run_call (AMapGetKeys m) h = Ok (OKeys ks, h)
    /\ run_calls [AMapSet m k i; AMapGetKeys m] h
       = Ok ([ODone; OKeys (if in_dec (list_eq_dec ascii_dec) k ks then ks else ks ++ [k])], h1)
    /\ (In k ks -> exists a b, ks = a ++ k :: b
          /\ run_calls [AMapRemoveKey m k; AMapSet m k i; AMapGetKeys m] h
             = Ok ([OFlag true false; ODone; OKeys (a ++ b ++ [k])], h2)).
Proof.
  intros R Hm Oi. pose proof Hm as [d Hd].
  destruct (map_observations X h m R Hm) as (ks & vs & Ek & _).
  pose proof (reachable_map_ok _ _ _ _ R Hd) as Dk.
  destruct (history X h [AMapGetKeys m] R) as (h0 & E0 & _); [cbn; auto|].
  cbn [run_calls] in E0. unfold bind in E0. rewrite Ek in E0. unfold ret in E0. cbn in E0.
  unfold map_at in E0. rewrite Hd in E0. cbn [the] in E0.
  injection E0 as E0 _. subst ks.
  destruct (history X h [AMapSet m k i; AMapGetKeys m] R) as (h1 & E1 & _).
  { cbn. repeat split; auto. unfold has, put. rewrite Nat.eqb_refl. eauto. }
  exists (dict_keys d), h1.
  assert (E1' : run_calls [AMapSet m k i; AMapGetKeys m] h
     = Ok ([ODone; OKeys (if in_dec (list_eq_dec ascii_dec) k (dict_keys d) then dict_keys d else dict_keys d ++ [k])], h1)).
  { rewrite E1. remember (view h) as w eqn:Ew. clear Ew. cbn. unfold map_at. cbn. unfold put at 1.
    rewrite Nat.eqb_refl. cbn. rewrite Hd. cbn. unfold dict_keys. rewrite dict_keys_set.
    do 4 f_equal. unfold dict_has. destruct (in_dec (list_eq_dec ascii_dec) k (map fst d)) as [Hin|Hin].
    - destruct (dict_get d k) eqn:G; auto. apply dict_get_None in G. tauto.
    - apply dict_get_None in Hin. now rewrite Hin. }
  destruct (dict_has d k) eqn:Hk.
  - destruct (dict_remove_split d k Hk) as (a & v & b & Ed & Er & Na).
    destruct (history X h [AMapRemoveKey m k; AMapSet m k i; AMapGetKeys m] R) as (h2 & E2 & _).
    { remember (view h) as w eqn:Ew. clear Ew. cbn. unfold map_at. rewrite Hd. cbn. rewrite Hk. cbn.
      assert (Hp : forall v dd, has (w_map w) v -> has (put (w_map w) m dd) v).
      { intros v0 dd [x Hx]. unfold has, put. destruct (Nat.eqb v0 m); eauto. }
      repeat split; auto.
      - eapply ok_object_keep; [..|exact Oi]; cbn; auto.
      - unfold has, put. rewrite Nat.eqb_refl. eauto. }
    exists h2. split; auto. split; auto. intros _. exists (map fst a), (map fst b).
    split; [rewrite Ed; unfold dict_keys; now rewrite map_app|]. rewrite E2.
    remember (view h) as w eqn:Ew. clear Ew. cbn. unfold map_at. rewrite Hd. cbn. rewrite Hk. cbn.
    unfold put. rewrite !Nat.eqb_refl. cbn. rewrite Er. unfold dict_keys. rewrite dict_keys_set.
    assert (N : dict_get (a ++ b) k = None).
    { rewrite <- Er. rewrite dict_get_remove by auto. now rewrite str_eqb_refl. }
    unfold dict_has. rewrite N, map_app, <- app_assoc. reflexivity.
  - exists h1. split; auto. split; auto. intros Hin. exfalso.
    apply dict_has_keys in Hin. congruence.
Qed.

(** Arrays: out-of-range and in-range index operations. *)
Lemma array_index X h a n o :
  reachable X h -> has (w_arr (view h)) a -> ok_value_handle (view h) o ->
  exists l, run_calls [AArrGetValues a; AArrLen a] h = Ok ([OElems l; OLen (Z.of_nat (length l))], h)
    /\ (n < 0 \/ Z.of_nat (length l) <= n ->
        run_call (AArrSetValueAtIndex a n o) h = Ok (OFlag false true, h)
        /\ run_call (AArrRemoveValueAtIndex a n) h = Ok (OFlag false true, h))
    /\ (0 <= n < Z.of_nat (length l) ->
        exists l1 x l2 h1 h2, l = l1 ++ x :: l2 /\ Z.of_nat (length l1) = n
        /\ run_calls [AArrSetValueAtIndex a n o; AArrGetValues a] h
           = Ok ([OFlag true false; OElems (l1 ++ o :: l2)], h1)
        /\ run_calls [AArrRemoveValueAtIndex a n; AArrGetValues a] h
           = Ok ([OFlag true false; OElems (l1 ++ l2)], h2)).
Proof.
  intros R Ha Oo. pose proof Ha as [l Hl]. exists l.
  pose proof (reachable_Inv _ _ R) as I. pose proof (view_impl _ I) as P.
  pose proof (proj1 (im_arr _ _ P _ _) Hl) as [Hc _].
  assert (Rd : rd_arr h a = Ok l) by (now apply rd_arr_iff).
  split; [|split].
  - cbn. unfold bind, mlift, arr_GetValues, arr_Len, ret. rewrite Rd. cbn. rewrite Rd. reflexivity.
  - intros Hn. cbn. unfold arr_SetValueAtIndex, arr_RemoveValueAtIndex, bind. rewrite Rd.
    destruct (Z.ltb_spec n 0); [auto|].
    destruct (Z.ltb_spec (Z.of_nat (length l) - 1) n); [auto|lia].
  - intros Hn.
    destruct (history X h [AArrSetValueAtIndex a n o; AArrGetValues a] R) as (h1 & E1 & _).
    { remember (view h) as w eqn:Ew. clear Ew. cbn. repeat split; auto.
      destruct (valid_index _ _); cbn; auto. unfold has, put. rewrite Nat.eqb_refl. eauto. }
    destruct (history X h [AArrRemoveValueAtIndex a n; AArrGetValues a] R) as (h2 & E2 & _).
    { remember (view h) as w eqn:Ew. clear Ew. cbn. repeat split; auto.
      destruct (valid_index _ _); cbn; auto. unfold has, put. rewrite Nat.eqb_refl. eauto. }
    destruct (nth_error l (Z.to_nat n)) as [x|] eqn:En.
    2: { apply nth_error_None in En. lia. }
    apply nth_error_split in En as (l1 & l2 & El & Ll).
    exists l1, x, l2, h1, h2. split; auto. split; [lia|].
    assert (Vi : valid_index l n = true) by (unfold valid_index; lia).
    assert (S1 : forall y, list_set (l1 ++ x :: l2) (length l1) y = l1 ++ y :: l2)
      by (intros y; clear; induction l1; cbn; congruence).
    assert (S2 : list_remove (l1 ++ x :: l2) (length l1) = l1 ++ l2)
      by (clear; induction l1; cbn; congruence).
    rewrite E1, E2. remember (view h) as w eqn:Ew. clear Ew. cbn. unfold SpecWorld.arr_at. rewrite Hl. cbn [the].
    rewrite Vi. cbn. unfold put. rewrite !Nat.eqb_refl. cbn. rewrite <- Ll, El, S1, S2. auto.
Qed.
