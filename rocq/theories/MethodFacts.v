(** * Facts about the method tables *)
From Coq Require Import String List NArith Bool.
From Verif Require Import GoStr GoNum GoFloat Heap Common ValueModel ArrayModel MapModel GetterModel MethodTable.
Local Open Scope string_scope.
Import ListNotations.

Fixpoint nodupb (l : list string) : bool :=
  match l with [] => true | x :: t => negb (existsb (String.eqb x) t) && nodupb t end.
Lemma nodupb_ok l : nodupb l = true -> NoDup l.
Proof.
  induction l as [|x l IH]; cbn; constructor; apply andb_true_iff in H as [H1 H2]; auto.
  intros I. apply negb_true_iff in H1. assert (existsb (String.eqb x) l = true); [|congruence].
  apply existsb_exists. exists x. split; auto. apply String.eqb_refl.
Qed.
Lemma subset_ok a b : forallb (fun n => existsb (String.eqb n) b) a = true -> forall n, In n a -> In n b.
Proof.
  intros H n I. rewrite forallb_forall in H. apply H in I. apply existsb_exists in I as (m & I & E).
  apply String.eqb_eq in E. now subst.
Qed.
Lemma left_ok fields tbl n : In n (map fst fields) -> In n (map fst tbl) \/ In n (left_nil fields tbl).
Proof.
  intros I. unfold left_nil. destruct (set_in tbl n) eqn:S.
  - left. apply existsb_exists in S as (e & Ie & E). apply String.eqb_eq in E. subst. now apply in_map.
  - right. apply filter_In. now rewrite S.
Qed.

Lemma methods_set fields tbl :
  In (fields, tbl) [(map_fields, map_set); (array_fields, array_set); (value_fields, value_set)] ->
  NoDup (map fst tbl) /\ (forall n, In n (map fst tbl) -> In n (map fst fields))
  /\ (forall n, In n (map fst fields) -> In n (map fst tbl) \/ In n (left_nil fields tbl)).
Proof.
  intros H. split; [|split; [|apply left_ok]].
  - apply nodupb_ok. destruct H as [H|[H|[H|[]]]]; injection H as <- <-; vm_compute; reflexivity.
  - apply subset_ok. destruct H as [H|[H|[H|[]]]]; injection H as <- <-; vm_compute; reflexivity.
Qed.

(** The part of a method name that stands for an integer type. *)
Definition int_name (kd : ikind) : string :=
  match kd with
  | KInt => "Int" | KInt8 => "Int8" | KInt16 => "Int16" | KInt32 => "Int32" | KInt64 => "Int64"
  | KUInt => "UInt" | KUInt8 => "UInt8" | KUInt16 => "UInt16" | KUInt32 => "UInt32" | KUInt64 => "UInt64"
  end.

Lemma nil_int_getters kd X h m k :
  (set_in map_set ("Get" ++ int_name kd) = false <-> kd = KUInt)
  /\ (set_in map_set ("Get" ++ int_name kd ++ "Value") = false <-> kd = KUInt)
  /\ (kd = KUInt -> run_getter (GInt kd) X h m k = Panic /\ run_getter (GIntV kd) X h m k = Panic).
Proof.
  split; [|split].
  - destruct kd; vm_compute; split; congruence.
  - destruct kd; vm_compute; split; congruence.
  - intros ->. split; reflexivity.
Qed.
