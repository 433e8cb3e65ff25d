(** * C77: programs see the content of objects and nothing else *)
From Coq Require Import Ascii String List NArith ZArith Bool Lia.
From Verif Require Import GoStr GoNum GoFloat Heap Common ParserModel JsonModel TimeModel SpecDict SpecWorld Inv World Reach
  SpecAlike ClientModel AlikeRead AlikeTop MethodTable CoverModel CoverFacts ExampleState ExampleAlike.
Import ListNotations.

(** A program that is given objects with the same content and the same sharing sees the same,
    however the objects were made, wherever they lie and whatever else there is. *)
Theorem c77_same : forall X L h h' p t t' n (c : client),
  prints_no_address X -> reachable X h -> reachable X h' ->
  alike p (view h) (view h') -> Forall2 (fun a b => In (a, b) p) t t' ->
  fst (play X L n c [] t h) = fst (play X L n c [] t' h').
Proof. exact play_alike. Qed.

(** A program that is given nothing sees the same in every state. *)
Theorem c77_start : forall X L h h' n (c : client),
  prints_no_address X -> reachable X h -> reachable X h' ->
  fst (play X L n c [] [] h) = fst (play X L n c [] [] h').
Proof. exact play_start. Qed.

(** A program does not notice what another one did, if their objects do not hold each other. *)
Theorem c77_separate : forall X L h S1 S2 t1 t2 n (c : client) m (d : client),
  prints_no_address X -> reachable X h ->
  self_contained (view h) S1 -> self_contained (view h) S2 -> (forall a, In a S1 -> In a S2 -> False) ->
  incl t1 S1 -> incl t2 S2 ->
  fst (play X L m d [] t2 (snd (play X L n c [] t1 h))) = fst (play X L m d [] t2 h).
Proof. exact play_separate. Qed.

(** If fmt prints addresses, programs can see them. *)
Theorem c77_address_refuted : ~ (forall X L h h' n (c : client),
  reachable X h -> reachable X h' -> fst (play X L n c [] [] h) = fst (play X L n c [] [] h')).
Proof. exact address_refuted. Qed.

(** The calls of programs are the methods that the constructors assign (MethodTable.v), all of
    them. *)
Theorem c77_calls : forall X,
  (forall e, In e map_set <-> In e (map fst (map_calls X)))
  /\ (forall e, In e array_set <-> In e (map fst array_calls))
  /\ (forall e, In e value_set <-> In e (map fst (value_calls X))).
Proof. exact calls_cover. Qed.

(** A map made with a detour and the same map made directly after other objects. *)
Example c77_ex : forall L,
  prints_no_address std_ext /\ reachable std_ext detour /\ reachable std_ext direct
  /\ alike detour_direct (view detour) (view direct)
  /\ Forall2 (fun a b => In (a, b) detour_direct) [1] [3]
  /\ fst (play std_ext L 9 appender [] [1] detour)
     = [Ok (FOut (OValue (Some 0)), [1]); Ok (FOut (OObj (IPArr (Some 0))), [2]); Ok (FOut ODone, []);
        Ok (FOut (OValue (Some 0)), [3]); Ok (FOut (OObj (IPArr (Some 0))), [2]);
        Ok (FText (Some (lit "{""a"":[5],""b"":true,""c"":[5]}"), []), [])]
  /\ fst (play std_ext L 9 appender [] [3] direct) = fst (play std_ext L 9 appender [] [1] detour).
Proof. exact ex_detour. Qed.

Example c77_parse_ex : forall L,
  fst (play std_ext L 9 reparser [] [] direct)
  = [Ok (FPtr (GVal (Some 0)), [0]); Ok (FText (Some (lit "{""a"":[1,{}]}"), []), [])]
  /\ fst (play std_ext L 9 reparser [] [] detour) = fst (play std_ext L 9 reparser [] [] direct).
Proof. exact ex_reparser. Qed.

(** Two maps, one of which holds itself; the first is changed. *)
Example c77_separate_ex : forall L,
  reachable std_ext two_maps
  /\ self_contained (view two_maps) [1; 2] /\ self_contained (view two_maps) [4; 5]
  /\ (forall a, In a [1; 2] -> In a [4; 5] -> False)
  /\ snd (play std_ext L 9 remover [] [1] two_maps) <> two_maps
  /\ fst (play std_ext L 9 remover [] [4] (snd (play std_ext L 9 remover [] [1] two_maps)))
     = [Ok (FOut (OFlag false true), []); Ok (FOut (OKeys [lit "b"]), [])].
Proof. exact ex_two_maps. Qed.

Print Assumptions c77_same.
Print Assumptions c77_start.
Print Assumptions c77_separate.
Print Assumptions c77_address_refuted.
Print Assumptions c77_calls.
