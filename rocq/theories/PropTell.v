(** * C82: programs can see all of the content of objects *)
From Coq Require Import Ascii String List NArith ZArith Bool Lia.
From Verif Require Import GoStr GoNum GoFloat Heap Common ParserModel JsonModel TimeModel SpecDict SpecWorld Inv World Reach
  SpecAlike ClientModel AlikeRead AlikeTop ExampleState ExampleAlike SpecTell TellFacts TellTop TellAll TellEnd ExampleTell.
Import ListNotations.

(** For the objects of a state there is a program that recognises them.  Given other objects of
    the same types, in any state, it only reads, does not fail and changes nothing; and if it
    sees the same as with the first ones, they have the same content and the same sharing. *)
Theorem c82_recognises : forall X L h t, reachable X h -> exists n (c : client), forall h' t',
  reachable X h' -> same_handles (view h) (view h') t t' ->
  (forall r, In r (fst (play X L n c [] t' h')) -> exists x, r = Ok x)
  /\ snd (play X L n c [] t' h') = h'
  /\ (fst (play X L n c [] t h) = fst (play X L n c [] t' h') ->
      exists p, alike p (view h) (view h') /\ Forall2 (fun a b => In (a, b) p) t t').
Proof. exact recognises_ok. Qed.

(** With C77: programs tell objects from each other exactly when their content or sharing
    differs. *)
Theorem c82_exactly : forall X L h h' t t',
  prints_no_address X -> reachable X h -> reachable X h' -> same_handles (view h) (view h') t t' ->
  ((forall n (c : client), fst (play X L n c [] t h) = fst (play X L n c [] t' h'))
   <-> exists p, alike p (view h) (view h') /\ Forall2 (fun a b => In (a, b) p) t t').
Proof. exact exactly. Qed.

(** ToJSONString alone does not tell all. *)
Theorem c82_text_refuted : ~ (forall h h' m m', reachable std_ext h -> reachable std_ext h' ->
  (exists n s, map_ToJSONString n std_ext h m (Some []) = Ok (Some s, [])
               /\ map_ToJSONString n std_ext h' m' (Some []) = Ok (Some s, [])) ->
  exists p, alike p (view h) (view h') /\ In (m, m') p).
Proof. exact text_refuted. Qed.

(** A map that was made with a detour, the same one made directly, and one with two arrays
    instead of a shared one. *)
Example c82_ex : forall L,
  reachable std_ext detour /\ reachable std_ext direct /\ reachable std_ext unshared
  /\ same_handles (view detour) (view direct) [1] [3] /\ same_handles (view detour) (view unshared) [1] [3]
  /\ fst (play std_ext L 40 detour_reader [] [3] direct) = fst (play std_ext L 40 detour_reader [] [1] detour)
  /\ fst (play std_ext L 40 detour_reader [] [3] unshared) <> fst (play std_ext L 40 detour_reader [] [1] detour)
  /\ ~ (exists p, alike p (view detour) (view unshared) /\ Forall2 (fun a b => In (a, b) p) [1] [3]).
Proof. exact ex_tell. Qed.

Print Assumptions c82_recognises.
Print Assumptions c82_exactly.
Print Assumptions c82_text_refuted.
