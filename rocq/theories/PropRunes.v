(** * Reading a string as code points: C49 *)
From Coq Require Import Ascii String List NArith ZArith Bool Lia.
From Verif Require Import GoStr GoNum GoFloat Heap Common ValueModel ArrayModel MapModel
  SpecDict SpecWorld SpecUtf8 Inv World Reach RunesModel RunesFacts MapFacts ExampleState.
Import ListNotations.

(** The code points of a text stored as UTF-8 come back in order, whether it is stored
    as a string or as a pointer to one. *)
Theorem c49_text : forall X h m k cs,
  reachable X h -> has (w_map (view h)) m -> Forall scalar_value cs ->
  scalar_at (view h) m k = Some (SStr (utf8_text cs)) ->
  map_GetRunes X h m k = Ok (GVal (Some cs)).
Proof. exact get_runes_text. Qed.

(** Any other byte string is read with U+FFFD for each byte at which no encoded code
    point begins. *)
Theorem c49_bytes : forall X h m k t,
  reachable X h -> has (w_map (view h)) m -> scalar_at (view h) m k = Some (SStr t) ->
  exists cs, map_GetRunes X h m k = Ok (GVal (Some cs)) /\ reads_as t cs
    /\ forall cs', reads_as t cs' -> cs' = cs.
Proof. exact get_runes. Qed.

(** Nothing for a missing or nil value, one error for a scalar of another type and for
    a container. *)
Theorem c49_other : forall X h m k,
  reachable X h -> has (w_map (view h)) m ->
  (absent (view h) m k = true -> map_GetRunes X h m k = Ok (GVal None))
  /\ (forall s, scalar_at (view h) m k = Some s -> (forall t, s <> SStr t) ->
        exists e, map_GetRunes X h m k = Ok (GErr [e]))
  /\ (forall i, object_at (view h) m k = Some i ->
        cat_of (view h) i = Some CatMap \/ cat_of (view h) i = Some CatArr ->
        exists e, map_GetRunes X h m k = Ok (GErr [e])).
Proof. exact get_runes_other. Qed.

Definition runes_calls : list api :=
  [ANewMap; AMapSet 1 (lit "k") (IScal (SStr (utf8_text [97; 233; 8364; 128512]%N)));
   AMapSet 1 (lit "bad") (IScal (SStr [ascii_of_N 237; ascii_of_N 160; ascii_of_N 97]));
   AMapSet 1 (lit "n") (IScal (SInt KInt 7)); AMapSet 1 (lit "m") (IMap 1)].
Definition runes_state : heap := match run_calls runes_calls [] with Ok (_, h) => h | _ => [] end.
Example c49_ex : reachable std_ext runes_state /\ has (w_map (view runes_state)) 1%nat
  /\ Forall scalar_value [97; 233; 8364; 128512]%N
  /\ scalar_at (view runes_state) 1 (lit "k") = Some (SStr (utf8_text [97; 233; 8364; 128512]%N))
  /\ map_GetRunes std_ext runes_state 1 (lit "bad") = Ok (GVal (Some [65533; 65533; 97]%N))
  /\ absent (view runes_state) 1 (lit "zz") = true
  /\ scalar_at (view runes_state) 1 (lit "n") = Some (SInt KInt 7)
  /\ object_at (view runes_state) 1 (lit "m") = Some (IMap 1) /\ cat_of (view runes_state) (IMap 1) = Some CatMap.
Proof.
  split.
  { assert (E : exists os, run_calls runes_calls [] = Ok (os, runes_state)) by (eexists; vm_compute; reflexivity).
    destruct E as [os E]. refine (reachable_run_calls _ runes_calls [] os runes_state (R_start _) _ E).
    apply ok_callsb_ok. vm_compute. reflexivity. }
  split; [eexists; vm_compute; reflexivity|].
  split; [repeat (apply Forall_cons; [unfold scalar_value; lia|]); constructor|].
  repeat split; vm_compute; reflexivity.
Qed.

Print Assumptions c49_text.
Print Assumptions c49_bytes.
Print Assumptions c49_other.
