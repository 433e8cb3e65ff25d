(** * Lemmas about representation *)
From Coq Require Import Ascii String List NArith ZArith Bool Lia.
From Verif Require Import GoStr StrLemmas GoNum GoFloat Heap SpecDict DictLemmas SpecWorld SpecDoc.
Import ListNotations.

Scheme rep_obj_ind2 := Induction for rep_obj Sort Prop
  with rep_value_ind2 := Induction for rep_value Sort Prop
  with rep_elems_ind2 := Induction for rep_elems Sort Prop
  with rep_members_ind2 := Induction for rep_members Sort Prop.
Combined Scheme rep_mutind from rep_obj_ind2, rep_value_ind2, rep_elems_ind2, rep_members_ind2.

(** The part of a world the representation looks at. *)
Definition keeps_on (w w' : world) (F F' : nat -> Prop) : Prop :=
  (forall l, F l -> F' l \/ (w_map w l = None /\ w_arr w l = None /\ w_val w l = None /\ w_var w l = None))
  /\ (forall l d, F l -> w_map w l = Some d -> w_map w' l = Some d)
  /\ (forall l d, F l -> w_arr w l = Some d -> w_arr w' l = Some d)
  /\ (forall l d, F l -> w_val w l = Some d -> w_val w' l = Some d)
  /\ (forall l d, F l -> w_var w l = Some d -> w_var w' l = Some d).

Lemma keeps_on_mono w (F F' : nat -> Prop) : (forall l, F l -> F' l) -> keeps_on w w F F'.
Proof. intros H. repeat split; auto. Qed.

Lemma rep_frame_all tn w w' F F' : keeps_on w w' F F' ->
  (forall i d, rep_obj tn w F i d -> rep_obj tn w' F' i d)
  /\ (forall o d, rep_value tn w F o d -> rep_value tn w' F' o d)
  /\ (forall l ds, rep_elems tn w F l ds -> rep_elems tn w' F' l ds)
  /\ (forall l ds, rep_members tn w F l ds -> rep_members tn w' F' l ds).
Proof.
  intros (KF & Km & Ka & Kv & Kr).
  assert (G : (forall i d (_ : rep_obj tn w F i d), rep_obj tn w' F' i d)
    /\ (forall o d (_ : rep_value tn w F o d), rep_value tn w' F' o d)
    /\ (forall l ds (_ : rep_elems tn w F l ds), rep_elems tn w' F' l ds)
    /\ (forall l ds (_ : rep_members tn w F l ds), rep_members tn w' F' l ds)).
  { apply rep_mutind; intros; try (constructor; auto; fail).
    - apply rep_ptr; auto. destruct (KF _ f) as [|(_ & _ & _ & N)]; auto. congruence.
    - eapply rep_map; eauto. destruct (KF _ f) as [|(N & _)]; auto. congruence.
    - eapply rep_arr; eauto. destruct (KF _ f) as [|(_ & N & _)]; auto. congruence.
    - eapply rep_some; eauto. destruct (KF _ f) as [|(_ & _ & N & _)]; auto. congruence. }
  intuition auto.
Qed.

Lemma rep_obj_frame tn w w' F F' i d : keeps_on w w' F F' -> rep_obj tn w F i d -> rep_obj tn w' F' i d.
Proof. intros K. apply (rep_frame_all tn w w' F F' K). Qed.
Lemma rep_value_frame tn w w' F F' i d : keeps_on w w' F F' -> rep_value tn w F i d -> rep_value tn w' F' i d.
Proof. intros K. apply (rep_frame_all tn w w' F F' K). Qed.
Lemma rep_elems_frame tn w w' F F' i d : keeps_on w w' F F' -> rep_elems tn w F i d -> rep_elems tn w' F' i d.
Proof. intros K. apply (rep_frame_all tn w w' F F' K). Qed.
Lemma rep_members_frame tn w w' F F' i d : keeps_on w w' F F' -> rep_members tn w F i d -> rep_members tn w' F' i d.
Proof. intros K. apply (rep_frame_all tn w w' F F' K). Qed.

Section L.
  Context (tn : nils) (w : world) (F : nat -> Prop).

  Lemma rep_elems_app l ds l' ds' :
    rep_elems tn w F l ds -> rep_elems tn w F l' ds' -> rep_elems tn w F (l ++ l') (ds ++ ds').
  Proof. intros H H'. induction H; cbn; [auto|constructor; auto]. Qed.

  Lemma rep_elems_one o d : rep_value tn w F o d -> rep_elems tn w F [o] [d].
  Proof. intros. constructor; [auto|constructor]. Qed.

  Lemma rep_members_set l ds k o d :
    rep_members tn w F l ds -> rep_value tn w F o d ->
    rep_members tn w F (dict_set l k o) (dict_set ds k d).
  Proof.
    intros H V. induction H as [|k' o' d' l ds Hv H IH]; cbn.
    - constructor; [auto|constructor].
    - destruct (str_eqb k' k); constructor; auto.
  Qed.

  Lemma rep_members_keys l ds : rep_members tn w F l ds -> map fst l = map fst ds.
  Proof. intros H. induction H; cbn; congruence. Qed.

  Lemma rep_elems_F2 l ds : rep_elems tn w F l ds <-> Forall2 (rep_value tn w F) l ds.
  Proof. split; intros H; induction H; constructor; auto. Qed.

  Lemma rep_members_get l ds k : rep_members tn w F l ds ->
    match dict_get l k, dict_get ds k with
    | Some o, Some d => rep_value tn w F o d
    | None, None => True
    | _, _ => False
    end.
  Proof.
    intros H. induction H as [|k' o d l ds Hv H IH]; cbn; auto.
    destruct (str_eqb k' k); auto.
  Qed.
End L.
