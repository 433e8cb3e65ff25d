(** * Arrays of numbers, booleans and strings *)
From Coq Require Import Ascii String List NArith ZArith Bool Lia.
From Verif Require Import GoStr GoNum GoFloat Heap Common ValueModel ArrayModel MapModel
  SpecDict SpecWorld SpecNum SpecArray Inv World Reach MapFacts ExampleState ExampleJson.
Import ListNotations.
Local Open Scope Z_scope.

Definition array_calls : list api :=
  [ ANewArray;                                           (* 0 *)
    AArrAppend 0 (IScal (SInt KUInt8 200));              (* 1 *)
    AArrAppend 0 (IScal (SStr (lit "-17")));             (* 2 *)
    AArrAppendValue 0 None;
    ANewVar (SInt KInt64 70000);                         (* 3 *)
    AArrAppend 0 (IPtr (TyInt KInt64) (Some 3%nat));     (* 4 *)
    AArrAppend 0 (IScal (SBool true));                   (* 5 *)
    ANewArray;                                           (* 6 *)
    AArrAppend 6 (IScal (SStr (lit "a")));               (* 7 *)
    AArrAppend 6 INil;                                   (* 8 *)
    ANewMap;                                             (* 10 *)
    AMapSet 10 (lit "n") (IArr 0%nat);                   (* 11 *)
    AMapSet 10 (lit "s") (IPArr (Some 6%nat));           (* 12 *)
    AMapSet 10 (lit "x") (IScal (SBool false));          (* 13 *)
    ANewArray;                                           (* 14 *)
    AArrAppend 14 (IScal (SInt KUInt8 5));               (* 15 *)
    AArrAppendValue 14 None;
    AArrAppend 14 (IScal (SStr (lit "+7"))) ].           (* 16 *)

Definition array_state : heap :=
  match run_calls array_calls [] with Ok (_, h) => h | _ => [] end.

Lemma array_reachable X : reachable X array_state.
Proof.
  assert (E : exists os, run_calls array_calls [] = Ok (os, array_state)) by (eexists; vm_compute; reflexivity).
  destruct E as [os E]. refine (reachable_run_calls X array_calls [] os array_state (R_start X) _ E).
  apply ok_callsb_ok. vm_compute. reflexivity.
Qed.

Definition plainb (w : world) (o : option nat) : bool :=
  match o with
  | None => true
  | Some v => match w_val w v with
              | Some i => nil_object i || match cat_of w i with Some _ => true | None => false end
              | None => false
              end
  end.
Lemma plainb_ok w l : forallb (plainb w) l = true -> Forall (plain w) l.
Proof.
  rewrite forallb_forall, Forall_forall. intros H o Ho. specialize (H o Ho). destruct o as [v|]; [|exact I].
  unfold plainb in H. destruct (w_val w v) as [i|] eqn:E; [|discriminate]. exists i. split; auto.
  apply orb_true_iff in H as [H|H]; auto. right. destruct (cat_of w i); discriminate.
Qed.
Definition textb (w : world) (o : option nat) : bool :=
  match o with
  | None => true
  | Some v => match w_val w v with
              | Some i => nil_object i || match scalar_of w i with Some (SStr _) => true | _ => false end
              | None => false
              end
  end.
Lemma textb_ok w l : forallb (textb w) l = true -> Forall (text_elem w) l.
Proof.
  rewrite forallb_forall, Forall_forall. intros H o Ho. specialize (H o Ho). destruct o as [v|]; [|exact I].
  unfold textb in H. destruct (w_val w v) as [i|] eqn:E; [|discriminate]. exists i. split; auto.
  apply orb_true_iff in H as [H|H]; auto. right. destruct (scalar_of w i) as [[]|]; try discriminate. eauto.
Qed.
Definition intsb (is64 : bool) (w : world) (o : option nat) : bool :=
  match elem_scalar w o with
  | Some (SInt k z) => fitsb is64 k z && (z <=? 2 ^ 63 - 1)
  | _ => true
  end.
Lemma intsb_ok is64 w l : forallb (intsb is64 w) l = true ->
  forall k o k0 z, In o l -> elem_scalar w o = Some (SInt k0 z) ->
    fits is64 k0 z /\ (is_signed k -> k0 = KUInt -> z <= 2 ^ 63 - 1).
Proof.
  rewrite forallb_forall. intros H k o k0 z Ho E. specialize (H o Ho). unfold intsb in H. rewrite E in H.
  apply andb_true_iff in H as [H1 H2]. split; [now apply fitsb_ok|]. intros _ _. now apply Z.leb_le.
Qed.
