(** * Several programs that use the library at the same time

    The programs of ClientModel.v take turns in any order.  A turn is one call; how the
    steps inside a call may mix is the subject of ConcModel.v and ParseConcModel.v. *)
From Coq Require Import Ascii String List NArith ZArith Bool.
From Verif Require Import GoStr GoNum GoFloat Heap Common ValueModel ArrayModel MapModel JsonModel ParserModel
  GetterModel NamedModel PtrModel PtrListModel TimeModel SpecDict SpecWorld Inv World Reach SpecAlike ClientModel.
Import ListNotations.

(** A program, what it has seen, its table of handles, and whether it has ended. *)
Record prog := Prog { g_code : client; g_seen : seen; g_table : list nat; g_over : bool }.
Definition start (c : client) (t : list nat) : prog := Prog c [] t false.

Section Team.
  Context (X : ext) (L : timelib).

  (** One call of a program.  (A panic ends the program that made the call, as if the
      goroutine recovered at its top; in Go a panic that nobody recovers ends all.) *)
  Definition turn (g : prog) (h : heap) : prog * heap :=
    let stop s := (Prog (g_code g) s (g_table g) true, h) in
    if g_over g then (g, h)
    else match g_code g (g_seen g) with
         | None => stop (g_seen g)
         | Some q =>
             if forallb (fun i => Nat.ltb i (length (g_table g))) (request_handles q) then
               match ask X L (rename (fun i => nth i (g_table g) 0) q) h with
               | Ok (r, h') =>
                   let t' := g_table g ++ snd r in
                   (Prog (g_code g) (g_seen g ++ [Ok (fst r, map (fun x => place x t') (snd r))]) t' false, h')
               | Panic => stop (g_seen g ++ [Panic])
               | Stuck => stop (g_seen g ++ [Stuck])
               | NoFuel => stop (g_seen g ++ [NoFuel])
               end
             else stop (g_seen g)
         end.

  (** The programs take the turns the schedule gives them. *)
  Fixpoint team (sched : list nat) (gs : list prog) (h : heap) : list prog * heap :=
    match sched with
    | [] => (gs, h)
    | i :: rest =>
        match nth_error gs i with
        | Some g => let (g', h') := turn g h in team rest (upd gs i g') h'
        | None => team rest gs h
        end
    end.
End Team.

(** Calls that change no object that exists already. *)
Definition only_reads (q : request) : bool :=
  match q with
  | QApi (AVarSet _ _) | QApi (AMapSetValue _ _ _) | QApi (AMapSet _ _ _) | QApi (AMapSetScalarValue _ _ _)
  | QApi (AMapRemoveKey _ _) | QApi (AArrAppendValue _ _) | QApi (AArrAppend _ _) | QApi (AArrSetValueAtIndex _ _ _)
  | QApi (AArrRemoveValueAtIndex _ _) | QApi (AValSetObject _ _) => false
  | _ => true
  end.
Definition reader (c : client) : Prop := forall s q, c s = Some q -> only_reads q = true.

(** A member of a team: its program, the handles it is given, and the objects it can reach. *)
Definition member := (client * list nat * list nat)%type.
Definition begin (m : member) : prog := start (fst (fst m)) (snd (fst m)).
Definition apart (S S' : list nat) : Prop := forall a, In a S -> In a S' -> False.

(** The members reach only their own objects; two that share objects only read. *)
Definition good_team (h : heap) (members : list member) : Prop :=
  (forall i c t S, nth_error members i = Some (c, t, S) -> self_contained (view h) S /\ incl t S)
  /\ forall i j c t S c' t' S', i <> j ->
       nth_error members i = Some (c, t, S) -> nth_error members j = Some (c', t', S') ->
       apart S S' \/ (reader c /\ reader c').
