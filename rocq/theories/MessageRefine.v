(** * The texts of Parse's errors: from the heap to trees (proofs for C79) *)
From Coq Require Import Ascii String List NArith ZArith Bool Lia.
From Verif Require Import GoStr StrLemmas GoNum GoFloat Heap Common ValueModel ArrayModel MapModel
  SpecDict DictLemmas SpecWorld Inv World Reach ObjFacts SpecDoc RepFacts ParserModel TreeParser ParseWorld ParseRefine ParseTop
  MessageModel.
Import ListNotations.

Definition t_end_says (st : tst) : res (list str) :=
  match t_stk st with
  | [] => Ok [lit "error: list is empty"]
  | (f, _) :: _ => value_text_says (is_fmap f) (t_tk st) (t_tv st)
  end.
Definition t_attach_says (st : tst) : res (list str) :=
  match t_stk st with
  | [] => Ok []
  | (f, _) :: _ => if is_fmap f then unquote_key_says (t_tk st) else Ok []
  end.
Definition t_mode_says (b : ascii) (st : tst) : res (list str) :=
  match t_mode st with
  | MKeys | MKeyName | MColumn => Ok []
  | MValue | MNext =>
      if match t_mode st with MNext => true | _ => false end
         && (Ascii.eqb b c_sp || Ascii.eqb b c_nl || Ascii.eqb b c_cr
             || Ascii.eqb b c_bs || Ascii.eqb b c_tab)
      then Ok []
      else if negb (t_ps st) then
        if Ascii.eqb b c_lb || Ascii.eqb b c_ls then t_attach_says st
        else if Ascii.eqb b c_rb || Ascii.eqb b c_rs || Ascii.eqb b c_com then t_end_says st
        else Ok []
      else Ok []
  end.
Definition t_step_says (prev : option ascii) (b : ascii) (st : tst) : res (list str) :=
  let q := Ascii.eqb b c_dq
           && match prev with Some p => negb (Ascii.eqb p c_bs) | None => true end in
  if negb (t_ps st) then t_mode_says b (t_set_ps q (t_cnt st) st)
  else if q then
    match t_mode st with
    | MValue | MNext => t_end_says (t_add_val (utf8_of_byte b) st)
    | _ => Ok []
    end
  else t_mode_says b st.
Fixpoint t_loop_says (prev : option ascii) (s : str) (st : tst) (ms : list str) : res (tst * list str) :=
  match s with
  | [] => Ok (st, ms)
  | b :: t =>
      m <-r t_step_says prev b st ;;
      st' <-r t_step prev b st ;;
      t_loop_says (Some b) t st' (ms ++ m)
  end.

(** No step ends in any other way than with messages or a panic. *)
Definition settled {A} (r : res A) : Prop := match r with Ok _ | Panic => True | _ => False end.

Lemma value_text_settled m k v : settled (value_text_says m k v).
Proof.
  unfold value_text_says. cbv zeta. destruct m; [destruct (is_quoted (clean k)); [destruct (slice_inner (clean k))|]|]; cbn [rbind settled]; auto.
  all: destruct (contains_byte c_dq (clean v)); [destruct (is_quoted (clean v)); [destruct (slice_inner (clean v))|]|]; cbn [rbind settled]; auto.
  all: destruct (_ ++ _); exact Logic.I.
Qed.

Lemma end_settled st : settled (t_end_says st).
Proof. unfold t_end_says. destruct (t_stk st) as [|[f a] t]; [exact Logic.I|]. apply value_text_settled. Qed.
Lemma mode_settled b st : settled (t_mode_says b st).
Proof.
  assert (A : settled (t_attach_says st)).
  { unfold t_attach_says, unquote_key_says. destruct (t_stk st) as [|[f a] t]; [exact Logic.I|].
    destruct (is_fmap f); [|exact Logic.I]. destruct (is_quoted _); [destruct (slice_inner _)|]; exact Logic.I. }
  pose proof (end_settled st) as E. unfold t_mode_says.
  destruct (t_mode st); try exact Logic.I; destruct (_ && _); try exact Logic.I; destruct (negb _); try exact Logic.I;
    destruct (_ || _); auto; destruct (_ || _); auto; exact Logic.I.
Qed.
Lemma step_settled prev b st : settled (t_step_says prev b st).
Proof.
  unfold t_step_says. cbv zeta. destruct (negb _); [apply mode_settled|]. destruct (_ && _); [|apply mode_settled].
  destruct (t_mode st); try exact Logic.I; apply end_settled.
Qed.

Section R.
  Context (X : ext) (tn : nils) (own : nat -> Prop) (w0 : world).
  Notation pinv := (pinv X tn own w0).

  Lemma pinv_top ts st h : pinv ts st h ->
    match p_list st, t_stk ts with
    | [], [] => True
    | v :: _, (f, _) :: _ => value_is common_IsMap X h v = Ok (is_fmap f)
    | _, _ => False
    end /\ p_tk st = t_tk ts /\ p_tv st = t_tv ts.
  Proof.
    intros (ls & pr & -> & S). cbn [p_list p_tk p_tv]. split; auto. destruct ls as [|v ls].
    - now rewrite (sinv_nil _ _ _ _ _ _ _ _ S).
    - apply sinv_cons in S as (f & a & stk' & z & zs & w & -> & S & E). eapply is_map_top; eauto.
  Qed.

  Lemma end_refine ts st h : pinv ts st h -> end_says X st h = t_end_says ts.
  Proof.
    intros P. destruct (pinv_top _ _ _ P) as (T & K & V). unfold end_says, t_end_says, parseJSONValue_says. rewrite K, V.
    destruct (p_list st) as [|v ls]; destruct (t_stk ts) as [|[f a] t]; try contradiction; auto. rewrite T. reflexivity.
  Qed.
  Lemma attach_refine ts st h : pinv ts st h -> attach_says X (p_list st) (p_tk st) h = t_attach_says ts.
  Proof.
    intros P. destruct (pinv_top _ _ _ P) as (T & K & V). unfold attach_says, t_attach_says. rewrite K.
    destruct (p_list st) as [|v ls]; destruct (t_stk ts) as [|[f a] t]; try contradiction; auto. rewrite T. reflexivity.
  Qed.
  Lemma mode_refine b ts st h : pinv ts st h -> step_mode_says X b st h = t_mode_says b ts.
  Proof.
    intros P. unfold step_mode_says, t_mode_says. destruct (pinv_fields _ _ _ _ _ _ _ P) as (-> & -> & _).
    now rewrite (end_refine _ _ _ P), (attach_refine _ _ _ P).
  Qed.
  Lemma step_says_refine prev b ts st h : pinv ts st h -> step_says X prev b st h = t_step_says prev b ts.
  Proof.
    intros P. unfold step_says, t_step_says. cbv zeta. destruct (pinv_fields _ _ _ _ _ _ _ P) as (-> & -> & -> & _).
    destruct (negb _); [apply mode_refine, pinv_ps; auto|]. destruct (_ && _); [|now apply mode_refine].
    destruct (t_mode ts); auto; now apply end_refine, pinv_val.
  Qed.

  Lemma loop_says_refine s : forall prev ts st h ms, pinv ts st h ->
    sim (fun a b h => pinv (fst a) (fst b) h /\ snd a = snd b) (t_loop_says prev s ts ms) (loop_says X prev s st ms h).
  Proof.
    induction s as [|b s IH]; intros prev ts st h ms P; cbn [t_loop_says loop_says]; [split; auto|].
    unfold bind, mlift. rewrite (step_says_refine prev b ts st h P).
    pose proof (step_settled prev b ts) as Se. destruct (t_step_says prev b ts) as [m| | |]; cbn [settled rbind sim] in *; auto.
    pose proof (step_refine X tn own w0 prev b _ _ _ P) as A.
    destruct (t_step _ _ _) as [ts1| | |]; destruct (step _ _ _ _ _) as [[st1 h1]| | |]; cbn in A; try contradiction; cbn [rbind sim]; auto.
  Qed.

  (** The same states as without messages. *)
  Lemma loop_says_loop s : forall prev st h ms st' ms' h', loop_says X prev s st ms h = Ok ((st', ms'), h') ->
    parse_loop X prev s st h = Ok (st', h').
  Proof.
    induction s as [|b s IH]; intros prev st h ms st' ms' h' H; cbn [loop_says parse_loop] in *.
    - inversion H; subst. reflexivity.
    - unfold bind, mlift in *. destruct (step_says X prev b st h); try discriminate. cbn [rbind] in H.
      destruct (step X prev b st h) as [[st1 h1]| | |]; try discriminate. eauto.
  Qed.
End R.

(** The messages of the tree machine are enough. *)
Theorem says_refines X h s : reachable X h ->
  match t_loop_says None s tst0 [] with
  | Ok (ts, ms) => exists st h', loop_says X None s pst0 [] h = Ok ((st, ms), h') /\ parse_loop X None s pst0 h = Ok (st, h')
      /\ p_cnt st = t_cnt ts /\ p_errs st = t_errs ts
  | Panic => loop_says X None s pst0 [] h = Panic
  | _ => False
  end.
Proof.
  intros R.
  assert (P0 : pinv X NoNils (from (length h)) (view h) tst0 pst0 h).
  { exists [], None. split; auto. now apply sinv0. }
  pose proof (loop_says_refine X NoNils (from (length h)) (view h) s None tst0 pst0 h [] P0) as A.
  destruct (t_loop_says None s tst0 []) as [[ts m]| | |]; destruct (loop_says X None s pst0 [] h) as [[[st1 m1] h1]| | |] eqn:E;
    cbn in A; try contradiction; auto.
  destruct A as [P ->]. exists st1, h1. split; auto. split; [eapply loop_says_loop; eauto|].
  destruct (pinv_fields _ _ _ _ _ _ _ P) as (_ & _ & C & Er). auto.
Qed.
