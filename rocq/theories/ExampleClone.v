(** * A state to clone *)
From Coq Require Import Ascii String List NArith ZArith Bool Lia.
From Verif Require Import GoStr GoNum GoFloat Heap Common ValueModel ArrayModel MapModel JsonModel
  SpecDict SpecWorld Inv World Reach MapFacts SpecDoc ParserModel SpecParse ParseWorld SpecClone SpecHistory ExampleState ExampleJson.
Import ListNotations.
Local Open Scope nat_scope.

(** Computing the content of an object. *)
Definition content_of_value (rec : iface -> option content) (w : world) (o : option nat) : option content :=
  match o with
  | None => Some HNone
  | Some v => match w_val w v with Some i => rec i | None => None end
  end.
Fixpoint content_of (n : nat) (w : world) (i : iface) : option content :=
  match n with
  | O => None
  | S n =>
      match i with
      | IPtr t (Some p) =>
          match w_var w p with
          | Some s => if stype_eq (stype_of s) t then Some (HVar s) else None
          | None => None
          end
      | IMap m | IPMap (Some m) =>
          match w_map w m with
          | Some d => option_map HMap (map_opt (fun ko => option_map (pair (fst ko)) (content_of_value (content_of n w) w (snd ko))) d)
          | None => None
          end
      | IArr a | IPArr (Some a) =>
          match w_arr w a with
          | Some l => option_map HArr (map_opt (content_of_value (content_of n w) w) l)
          | None => None
          end
      | _ => Some (HLeaf i)
      end
  end.

Lemma content_of_holds w n : forall i d, content_of n w i = Some d -> holds_obj w (fun _ => True) i d.
Proof.
  induction n as [|n IH]; intros i d E; [discriminate|]. cbn [content_of] in E.
  assert (V : forall o e, content_of_value (content_of n w) w o = Some e -> holds_value w (fun _ => True) o e).
  { intros [v|] e H; cbn in H; [|inversion H; constructor]. destruct (w_val w v) eqn:Ev; [|discriminate]. econstructor; eauto. }
  assert (El : forall l ds, map_opt (content_of_value (content_of n w) w) l = Some ds -> holds_elems w (fun _ => True) l ds).
  { induction l as [|o l IHl]; intros ds H; cbn in H; [inversion H; constructor|].
    destruct (content_of_value _ _ o) eqn:A; [|discriminate]. destruct (map_opt _ l) eqn:B; [|discriminate]. inversion H; subst.
    constructor; auto. }
  assert (Me : forall l ds, map_opt (fun ko => option_map (pair (fst ko)) (content_of_value (content_of n w) w (snd ko))) l = Some ds ->
     holds_members w (fun _ => True) l ds).
  { induction l as [|[k o] l IHl]; intros ds H; cbn in H; [inversion H; constructor|].
    destruct (content_of_value _ _ o) eqn:A; [|discriminate]. cbn in H. destruct (map_opt _ l) eqn:B; [|discriminate]. inversion H; subst.
    constructor; auto. }
  destruct i as [|s|t [p|]|m|[m|]|a|[a|]|v|[v|]|l|l|[l|]|[l|]|e|[e|]|q|b|[b|]|q|q]; try (inversion E; now constructor).
  - destruct (w_var w p) as [s|] eqn:Ep; [|discriminate]. destruct (stype_eq (stype_of s) t); [|discriminate]. inversion E.
    econstructor; eauto.
  - destruct (w_map w m) as [l|] eqn:Em; [|discriminate]. destruct (map_opt _ l) as [ds|] eqn:Q; [|discriminate].
    inversion E. eapply ho_map; eauto.
  - destruct (w_map w m) as [l|] eqn:Em; [|discriminate]. destruct (map_opt _ l) as [ds|] eqn:Q; [|discriminate].
    inversion E. eapply ho_map; eauto.
  - destruct (w_arr w a) as [l|] eqn:Em; [|discriminate]. destruct (map_opt _ l) as [ds|] eqn:Q; [|discriminate].
    inversion E. eapply ho_arr; eauto.
  - destruct (w_arr w a) as [l|] eqn:Em; [|discriminate]. destruct (map_opt _ l) as [ds|] eqn:Q; [|discriminate].
    inversion E. eapply ho_arr; eauto.
Qed.

(** A map with a string, a pointer to a variable, an array, a map stored twice, a list
    of errors, a nil pointer and a nil [*Value]. *)
Definition clone_calls : list api :=
  [ ANewMap;                                                       (* 1 *)
    AMapSet 1 (lit "s") (IScal (SStr (lit "text")));               (* 2 *)
    ANewVar (SInt KInt32 7);                                       (* 3 *)
    AMapSet 1 (lit "p") (IPtr (TyInt KInt32) (Some 3));            (* 4 *)
    ANewArray;                                                     (* 5 *)
    AArrAppend 5 (IScal (SBool true));                             (* 6 *)
    AArrAppend 5 (IPtr (TyInt KInt32) (Some 3));                   (* 7 *)
    AMapSet 1 (lit "a") (IPArr (Some 5));                          (* 8 *)
    ANewMap;                                                       (* 10 *)
    AMapSet 10 (lit "e") (IErrs [Plain (lit "one"); Plain (lit "two")]);           (* 11 *)
    AMapSet 10 (lit "n") (IPtr TyStr None);                        (* 12 *)
    AMapSetValue 10 (lit "v") None;
    AMapSet 1 (lit "m") (IMap 10);                                 (* 13 *)
    AMapSet 1 (lit "again") (IPMap (Some 10)) ].                   (* 14 *)
Definition clone_state : heap := match run_calls clone_calls [] with Ok (_, h) => h | _ => [] end.
Definition clone_content : content :=
  let sub := HMap [(lit "e", HLeaf (IErrs [Plain (lit "one"); Plain (lit "two")])); (lit "n", HLeaf (IPtr TyStr None)); (lit "v", HNone)] in
  HMap [(lit "s", HLeaf (IScal (SStr (lit "text")))); (lit "p", HVar (SInt KInt32 7));
        (lit "a", HArr [HLeaf (IScal (SBool true)); HVar (SInt KInt32 7)]); (lit "m", sub); (lit "again", sub)].

Lemma clone_reachable X : reachable X clone_state.
Proof.
  assert (E : exists os, run_calls clone_calls [] = Ok (os, clone_state)) by (eexists; vm_compute; reflexivity).
  destruct E as [os E]. refine (reachable_run_calls X clone_calls [] os clone_state (R_start X) _ E).
  apply ok_callsb_ok. vm_compute. reflexivity.
Qed.
Lemma clone_holds : holds_obj (view clone_state) (fun _ => True) (IMap 1) clone_content.
Proof. apply (content_of_holds _ 9). vm_compute. reflexivity. Qed.

(** Running calls that change no object of a set. *)
Fixpoint run_apart (F : nat -> bool) (cs : list api) (h : heap) : option heap :=
  match cs with
  | [] => Some h
  | c :: t =>
      if ok_callb (view h) c && negb (match target c with Some l => F l | None => false end)
      then match run_call c h with Ok (_, h1) => run_apart F t h1 | _ => None end
      else None
  end.
Lemma run_apart_history X (F : nat -> bool) (F' : nat -> Prop) cs : (forall l, F' l -> F l = true) ->
  forall h h', run_apart F cs h = Some h' -> history X F' h h'.
Proof.
  intros H. induction cs as [|c t IH]; intros h h' E; cbn [run_apart] in E.
  - injection E as <-. apply hi_done.
  - destruct (ok_callb (view h) c) eqn:K; [|discriminate].
    destruct (target c) as [l|] eqn:T.
    + destruct (F l) eqn:Fl; [discriminate|]. cbn [andb negb] in E.
      destruct (run_call c h) as [[o h1]| | |] eqn:R; try discriminate.
      eapply hi_call; eauto using ok_callb_ok. intros u Eu Fu. rewrite T in Eu. injection Eu as <-. apply H in Fu. congruence.
    + cbn [andb negb] in E. destruct (run_call c h) as [[o h1]| | |] eqn:R; try discriminate.
      eapply hi_call; eauto using ok_callb_ok. congruence.
Qed.
