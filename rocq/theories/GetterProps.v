(** * Combined statements about getters *)
From Coq Require Import Ascii String List NArith ZArith Bool Lia.
From Verif Require Import GoStr StrLemmas GoNum GoFloat Heap Common ValueModel ArrayModel MapModel
  GetterModel SpecDict DictLemmas SpecWorld SpecNum NumLemmas Inv World Reach MapFacts GetterFacts
  GetterFrame GetterLift GetterMore ObjFacts.
Import ListNotations.
Local Open Scope Z_scope.

(** Set then get. *)
Lemma set_get X h m k s c :
  reachable X h -> ok_call (view h) c ->
  (exists i, c = AMapSet m k i /\ scalar_of (view h) i = Some s) \/ c = AMapSetScalarValue m k s ->
  match s with
  | SInt KUInt _ | SFlt F32 _ => False
  | SInt k0 z => fits (x_is64 X) k0 z
  | _ => True
  end ->
  exists h', run_call c h = Ok (ODone, h') /\ reachable X h'
    /\ run_getter (getter_of (stype_of s)) X h' m k = Ok (answer_of s)
    /\ match value_getter_of (stype_of s) with
       | Some g => run_getter g X h' m k = Ok (value_answer_of s)
       | None => True
       end
    /\ forall g m2 k2, has (w_map (view h)) m2 -> (m2, k2) <> (m, k) ->
         run_getter g X h' m2 k2 = run_getter g X h m2 k2.
Proof.
  intros R K C S. destruct (scalar_after_set X h m k s c R K C) as (h' & E & R' & Hm & Hs).
  destruct (set_frame X h c m k R K) as (h2 & E2 & _ & F).
  { destruct C as [(i & -> & _)| ->]; unfold set_call; eauto. }
  rewrite E in E2. inversion E2; subst h2.
  destruct (map_same_type X h' m k s R' Hm Hs S) as [A B]. eauto 10.
Qed.

(** Text conversion. *)
Lemma text_conversion X h i s :
  reachable X h -> ok_object (view h) i -> scalar_of (view h) i = Some s ->
  (forall t, s = SStr t -> conv_string X h i = Ok (GVal t))
  /\ (forall b, s = SBool b -> conv_string X h i = Ok (GVal (lit (if b then "true" else "false"))))
  /\ (forall k z, s = SInt k z -> fits (x_is64 X) k z ->
       exists t, conv_string X h i = Ok (GVal t) /\ signed_numeral t z
         /\ (0 <= z -> numeral t z /\ canonical t)
         /\ forall m key, has (w_map (view h)) m ->
            exists h', run_call (AMapSet m key (IScal (SStr t))) h = Ok (ODone, h')
              /\ (fits (x_is64 X) KInt64 z ->
                    map_GetIntKind KInt64 X h' m key = Ok (GVal (Some z))
                    /\ map_GetIntKindValue KInt64 X h' m key = Ok (GVal z))
              /\ (fits (x_is64 X) KUInt64 z ->
                    map_GetIntKind KUInt64 X h' m key = Ok (GVal (Some z))
                    /\ map_GetIntKindValue KUInt64 X h' m key = Ok (GVal z))).
Proof.
  intros R O S. pose proof (reachable_Inv _ _ R) as I. pose proof (view_impl _ I) as P.
  pose proof (conv_scalar X h i s I (ok_object_impl _ _ _ P O) S) as C.
  split; [|split].
  - intros t ->. exact C.
  - intros b ->. rewrite C. now destruct b.
  - intros k z -> F. destruct (int_text_spec _ _ _ F) as [T1 T2].
    exists (int_text k z). split; auto. split; auto. split; auto.
    intros m key Hm.
    destruct (scalar_after_set X h m key (SStr (int_text k z)) (AMapSet m key (IScal (SStr (int_text k z)))) R)
      as (h' & E & R' & Hm' & Hs'); [split; [exact Hm|exact Logic.I]|left; eexists; split; reflexivity|].
    exists h'. split; auto. split.
    + intros F'. eapply map_int_text; eauto. unfold is_signed. tauto.
    + intros F'. assert (Z0 : 0 <= z).
      { destruct F' as [[Sg _]|[_ H]]; [|lia]. unfold is_signed in Sg. intuition discriminate. }
      destruct (T2 Z0) as [Nt _].
      eapply map_uint_text; eauto; try discriminate. unfold is_signed. intuition discriminate.
Qed.

(** Mutual exclusion of the predicates. *)
Lemma predicates_exclusive X h m k s :
  reachable X h -> has (w_map (view h)) m -> scalar_at (view h) m k = Some s ->
  forall t, map_is (pred_of t) X h m k = Ok true <-> t = stype_of s.
Proof.
  intros R Hm Hs t. destruct (scalar_predicates X h m k s R Hm Hs) as (P & _).
  destruct (P t) as (b & E & B). rewrite E. rewrite <- B. split; congruence.
Qed.
