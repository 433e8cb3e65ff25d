(** * A concrete program state

    A map with members of every shape, built by API calls; used beside the
    theorems to show that their hypotheses are met. *)
From Coq Require Import Ascii String List NArith ZArith Bool.
From Verif Require Import GoStr GoNum GoFloat Heap Common ValueModel ArrayModel MapModel
  SpecDict SpecWorld Inv World Reach MapFacts.
Import ListNotations.
Local Open Scope Z_scope.

(** Deciding that the handles used by a history are valid. *)
Definition hasb {A} (f : nat -> option A) (n : nat) : bool :=
  match f n with Some _ => true | None => false end.
Definition ok_valueb (w : world) (o : option nat) : bool :=
  match o with None => true | Some v => hasb (w_val w) v end.
Definition stype_eq (a b : stype) : {a = b} + {a <> b}.
Proof. decide equality; decide equality. Defined.
Definition ok_objectb (w : world) (i : iface) : bool :=
  match i with
  | IPtr t (Some p) => match w_var w p with Some s => if stype_eq (stype_of s) t then true else false | None => false end
  | IMap m | IPMap (Some m) => hasb (w_map w) m
  | IArr a | IPArr (Some a) => hasb (w_arr w) a
  | IVal v | IPVal (Some v) => hasb (w_val w) v
  | _ => true
  end.
Definition ok_callb (w : world) (c : api) : bool :=
  match c with
  | ANewVar _ | ANewArray | ANewMap => true
  | AVarSet p s =>
      match w_var w p with
      | Some s0 => if stype_eq (stype_of s0) (stype_of s) then true else false
      | None => false
      end
  | AVarGet p => hasb (w_var w) p
  | ANewValue i => ok_objectb w i
  | AMapSetValue m _ o => hasb (w_map w) m && ok_valueb w o
  | AMapSet m _ i => hasb (w_map w) m && ok_objectb w i
  | AMapSetScalarValue m _ _ | AMapRemoveKey m _ | AMapHasKey m _ | AMapGetValue m _
  | AMapGetKeys m | AMapValues m => hasb (w_map w) m
  | AArrAppendValue a o => hasb (w_arr w) a && ok_valueb w o
  | AArrAppend a i => hasb (w_arr w) a && ok_objectb w i
  | AArrSetValueAtIndex a _ o => hasb (w_arr w) a && ok_valueb w o
  | AArrRemoveValueAtIndex a _ | AArrLen a | AArrGetValues a => hasb (w_arr w) a
  | AValSetObject v i => hasb (w_val w) v && ok_objectb w i
  | AValGetObject v => hasb (w_val w) v
  end.
Fixpoint ok_callsb (cs : list api) (w : world) : bool :=
  match cs with [] => true | c :: t => ok_callb w c && ok_callsb t (snd (spec_call c w)) end.

Lemma hasb_ok {A} (f : nat -> option A) n : hasb f n = true -> has f n.
Proof. unfold hasb, has. destruct (f n); [eauto|discriminate]. Qed.
Lemma ok_valueb_ok w o : ok_valueb w o = true -> ok_value_handle w o.
Proof. destruct o; cbn; auto using hasb_ok. Qed.
Lemma ok_objectb_ok w i : ok_objectb w i = true -> ok_object w i.
Proof.
  destruct i as [|s|t [p|]|z|[z|]|z|[z|]|z|[z|]| | |[?|]|[?|]| |[?|]| | |[?|]|[?|]|? [?|]]; cbn; auto using hasb_ok.
  destruct (w_var w p) as [s|]; [|discriminate]. destruct (stype_eq (stype_of s) t); [eauto|discriminate].
Qed.
Lemma ok_callb_ok w c : ok_callb w c = true -> ok_call w c.
Proof.
  destruct c; cbn; rewrite ?andb_true_iff; intuition auto using @hasb_ok, ok_valueb_ok, ok_objectb_ok.
  destruct (w_var w p) as [s0|]; [|discriminate].
  destruct (stype_eq (stype_of s0) (stype_of s)); [eauto|discriminate].
Qed.
Lemma ok_callsb_ok cs : forall w, ok_callsb cs w = true -> ok_calls cs w.
Proof.
  induction cs as [|c cs IH]; cbn; auto. intros w. rewrite andb_true_iff. intros [A B].
  auto using ok_callb_ok.
Qed.

Definition ex_calls : list api :=
  [ ANewMap;                                             (* 1 *)
    AMapSetScalarValue 1 (lit "a") (SInt KUInt8 200);    (* 2 3 *)
    AMapSet 1 (lit "b") (IScal (SStr (lit "12")));       (* 4 *)
    ANewMap;                                             (* 6 *)
    AMapSet 6 (lit "x") (IScal (SBool true));            (* 7 *)
    AMapSet 1 (lit "c") (IPMap (Some 6%nat));            (* 8 *)
    ANewArray;                                           (* 9 *)
    AArrAppend 9 (IScal (SInt KInt64 (-5)));             (* 10 *)
    AArrAppend 9 INil;                                   (* 11 *)
    AMapSet 1 (lit "d") (IArr 9%nat);                    (* 12 *)
    AMapSet 1 (lit "e") INil;                            (* 13 *)
    AMapSet 1 (lit "f") (IScal (SInt KUInt 18446744073709551615));  (* 14 *)
    AMapSet 1 (lit "g") (IScal (SFlt F64 (FFin true 3 (-1))));      (* 15 *)
    AMapSetScalarValue 1 (lit "h") (SFlt F32 (FFin false 1 (-24)));  (* 16 17 *)
    AMapSet 1 (lit "i") (IScal (SBool false));           (* 18 *)
    AMapSet 1 (lit "j") (IScal (SStr (lit "-129")));     (* 19 *)
    AMapRemoveKey 1 (lit "i");
    AMapSet 1 (lit "i") (IScal (SBool true)) ].          (* 20 *)

Definition ex_state : heap :=
  match run_calls ex_calls [] with Ok (_, h) => h | _ => [] end.

Lemma ex_reachable X : reachable X ex_state.
Proof.
  assert (E : exists os, run_calls ex_calls [] = Ok (os, ex_state)) by (eexists; vm_compute; reflexivity).
  destruct E as [os E]. refine (reachable_run_calls X ex_calls [] os ex_state (R_start X) _ E).
  apply ok_callsb_ok. vm_compute. reflexivity.
Qed.

Lemma ex_map : has (w_map (view ex_state)) 1%nat.
Proof. apply hasb_ok. vm_compute. reflexivity. Qed.
Lemma ex_map2 : has (w_map (view ex_state)) 6%nat.
Proof. apply hasb_ok. vm_compute. reflexivity. Qed.
Lemma ex_arr : has (w_arr (view ex_state)) 9%nat.
Proof. apply hasb_ok. vm_compute. reflexivity. Qed.
