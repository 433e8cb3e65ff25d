(** * Program states that API calls can produce *)
From Coq Require Import Ascii String List NArith ZArith Bool Lia.
From Verif Require Import GoStr StrLemmas GoNum GoFloat Heap Common ValueModel ArrayModel MapModel
  SpecDict DictLemmas SpecWorld Inv World.
Import ListNotations.

(** The world a heap stands for: cell [l] is the object with identity [l]; the
    private value list of a map is not an object of its own. *)
Definition owns (a : nat) (c : cell) : bool :=
  match c with CMap mo => Nat.eqb (m_vals mo) a | _ => false end.
Definition view (h : heap) : world :=
  World (length h)
    (fun l => match nth_error h l with
              | Some (CMap mo) =>
                  match nth_error h (m_vals mo) with
                  | Some (CArr vs) => Some (combine (m_keys mo) vs)
                  | _ => None
                  end
              | _ => None
              end)
    (fun l => match nth_error h l with
              | Some (CArr xs) => if existsb (owns l) h then None else Some xs
              | _ => None
              end)
    (fun l => match nth_error h l with Some (CVal i) => Some i | _ => None end)
    (fun l => match nth_error h l with Some (CPtr s) => Some s | _ => None end).

Lemma combine_dict {V} (d : dict V) : combine (dict_keys d) (dict_values d) = d.
Proof. induction d as [|[k v] d IH]; cbn; auto. f_equal. exact IH. Qed.

Lemma owns_iff h a : existsb (owns a) h = true <-> owned h a.
Proof.
  rewrite existsb_exists. split.
  - intros (c & Hc & E). apply In_nth_error in Hc as (m & Hm). destruct c; try discriminate.
    cbn in E. apply Nat.eqb_eq in E. exists m, m0. auto.
  - intros (m & mo & Hm & E). exists (CMap mo). split; [eapply nth_error_In; eauto|].
    cbn. now apply Nat.eqb_eq.
Qed.

Lemma view_impl h : Inv h -> impl h (view h).
Proof.
  intros I. split; cbn; auto.
  - intros l d. split.
    + destruct (nth_error h l) as [[| |mo|]|] eqn:E; try discriminate.
      destruct (inv_map _ I _ _ E) as [d' H]. pose proof H as (Ek & Ha & _). rewrite Ha, Ek, combine_dict.
      intros X. inversion X; subst. exists mo. auto.
    + intros (mo & E & H). rewrite E. destruct H as (Ek & Ha & _). now rewrite Ha, Ek, combine_dict.
  - intros l xs. destruct (nth_error h l) as [[| | |ys]|] eqn:E; try (split; [discriminate|intros [? _]; discriminate]).
    destruct (existsb (owns l) h) eqn:O.
    + apply owns_iff in O. split; [discriminate|tauto].
    + assert (~ owned h l) by (rewrite <- owns_iff; congruence). split; [|intros [X _]]; intros; split || idtac; congruence.
  - intros l i. destruct (nth_error h l) as [[]|]; split; congruence.
  - intros l i. destruct (nth_error h l) as [[]|]; split; congruence.
Qed.

(** States reachable by a program from the empty one. *)
Inductive reachable (X : ext) : heap -> Prop :=
| R_start : reachable X []
| R_call h c o h' :
    reachable X h -> ok_call (view h) c -> run_call c h = Ok (o, h') -> reachable X h'.

Lemma reachable_Inv X h : reachable X h -> Inv h.
Proof.
  induction 1 as [|h c o h' R I K E].
  - apply Inv_nil.
  - destruct (run_call_ok _ _ _ I (view_impl _ I) K) as (h2 & E2 & I2 & _).
    rewrite E in E2. inversion E2; subst. auto.
Qed.

(** Every history of valid calls succeeds with the results of the specification. *)
Lemma history X h cs :
  reachable X h -> ok_calls cs (view h) ->
  exists h', run_calls cs h = Ok (fst (spec_calls cs (view h)), h')
    /\ Inv h' /\ hext h h' /\ impl h' (snd (spec_calls cs (view h))).
Proof.
  intros R K. pose proof (reachable_Inv _ _ R) as I.
  apply run_calls_ok; auto. now apply view_impl.
Qed.
