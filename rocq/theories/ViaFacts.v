(** * The getters of a map and of the values it holds (proofs for C65) *)
From Coq Require Import Ascii String List NArith ZArith Bool Lia.
From Verif Require Import GoStr StrLemmas GoNum GoFloat Heap Common ValueModel ArrayModel MapModel GetterModel RunesModel TimeModel NamedModel
  SpecDict SpecWorld Inv World Reach MapFacts GetterFacts GetterLift SpecNamed.
Import ListNotations.
Local Open Scope nat_scope.

(** The getter of Value a getter of Map stands for. *)
Definition counterpart (g : getter) : option vgetter :=
  match g with
  | GHasKey | GIsNull | GValue => None
  | GObject => Some VObject | GType => Some VType | GIs p => Some (VIs p) | GIsBoolVal b => Some (VIsBoolVal b)
  | GIsEmptyString => Some VIsEmptyString | GInt k => Some (VInt k) | GIntV k => Some (VIntV k)
  | GFloat32 => Some VFloat32 | GFloat32V => Some VFloat32V | GFloat64 => Some VFloat64 | GFloat64V => Some VFloat64V
  | GString => Some VString | GStringV => Some VStringV | GBool => Some VBool
  | GMap => Some VMap | GMapV => Some VMapV | GArray => Some VArray | GArrayV => Some VArrayV
  | GErrors => Some VErrors | GFunc => Some VFunc
  end.

(** The same name stands for the counterpart in both tables. *)
Definition fitting (X : ext) (e : string * N * getter) : Prop :=
  method (value_getters X) (fst (fst e)) = None
  \/ (snd e <> GObject /\ method (value_getters X) (fst (fst e)) = counterpart (snd e)
      /\ match snd e with GInt KUInt | GIntV KUInt => False | GIs p => p TNil = false | _ => True end).
Lemma all_fit X : Forall (fitting X) (map_getters X).
Proof.
  unfold map_getters, fitting.
  repeat (apply Forall_cons;
    [first [left; reflexivity
           |right; split; [discriminate|]; split; [reflexivity|]; first [exact Logic.I|reflexivity]]|]); try apply Forall_nil.
Qed.
Lemma method_In {A} (t : table A) n a : method t n = Some a -> exists l, In (n, l, a) t.
Proof.
  induction t as [|[[x l] b] t IH]; cbn; [discriminate|]. destruct (String.eqb_spec x n) as [->|].
  - intros [= ->]. eauto.
  - intros E. destruct (IH E) as [l' H]. eauto.
Qed.

Section V.
  Context (X : ext).

  Lemma same_name n g g' : method (map_getters X) n = Some g -> method (value_getters X) n = Some g' ->
    counterpart g = Some g' /\ g <> GObject
    /\ match g with GInt KUInt | GIntV KUInt => False | GIs p => p TNil = false | _ => True end.
  Proof.
    intros A B. destruct (method_In _ _ _ A) as [l H]. pose proof (all_fit X) as F. rewrite Forall_forall in F.
    destruct (F _ H) as [C|(C & D & E)]; cbn [fst snd] in *; [congruence|split; [congruence|auto]].
  Qed.

  (** ** A value that is there *)
  Lemma via_here {A} (nr : A) get h m k v i : map_GetValue h m k = Ok (Some v) -> nth_error h v = Some (CVal i) ->
    map_via nr get h m k = if common_IsNil i then Ok nr else get v.
  Proof.
    intros G V. unfold map_via, map_IsNull. unfold map_GetValue in *.
    destruct (rd_map h m) as [mo| | |]; cbn [rbind] in *; try discriminate.
    destruct (tbl_get (m_tbl mo) k) as [[w|]|]; try discriminate. injection G as ->.
    unfold rd_val. rewrite V. cbn [rbind]. destruct (common_IsNil i); reflexivity.
  Qed.
  (** A value that is not there. *)
  Lemma via_none {A} (nr : A) get h m k : map_GetValue h m k = Ok None -> map_via nr get h m k = Ok nr.
  Proof.
    intros G. unfold map_via, map_IsNull. unfold map_GetValue in *.
    destruct (rd_map h m) as [mo| | |]; cbn [rbind] in *; try discriminate.
    destruct (tbl_get (m_tbl mo) k) as [[w|]|]; try discriminate; reflexivity.
  Qed.

  (** What a Value that holds nil answers. *)
  Definition nil_answer (g : getter) : answer :=
    match g with
    | GHasKey | GIsNull => AnsBool true | GValue => AnsLoc None
    | GObject => AnsObj INil | GType => AnsType TNil | GIs _ | GIsBoolVal _ | GIsEmptyString => AnsBool false
    | GInt _ => AnsIntP (GVal None) | GIntV _ => AnsInt (GErr [ENilValue])
    | GFloat32 | GFloat64 => AnsFltP (GVal None) | GFloat32V | GFloat64V => AnsFlt (GErr [ENilValue])
    | GString => AnsStrP (GVal None) | GStringV => AnsStr (GErr [ENilValue]) | GBool => AnsBoolP (GVal None)
    | GMap | GArray => AnsLocP (GVal None) | GMapV | GArrayV => AnsLocV (GErr [ENilValue])
    | GErrors => AnsErrs (GVal []) | GFunc => AnsFunc (GVal None)
    end.
  Lemma nil_int kd h v i : nth_error h v = Some (CVal i) -> iface_IsNil X i = true -> kd <> KUInt ->
    value_GetIntKind kd X h v = Ok (GVal None).
  Proof.
    intros V N K. destruct kd; try congruence;
      unfold value_GetIntKind, value_GetInt, value_GetInt8, value_GetInt16, value_GetInt32, value_GetUInt8, value_GetUInt16, value_GetUInt32,
        value_GetInt64, value_GetUInt64, rd_val; rewrite V; cbn [rbind]; rewrite N; cbn [rbind narrow]; try reflexivity. now destruct (x_is64 X).
  Qed.
  Lemma nil_value g g' h v i : counterpart g = Some g' -> g <> GObject ->
    match g with GInt KUInt | GIntV KUInt => False | GIs p => p TNil = false | _ => True end ->
    nth_error h v = Some (CVal i) -> common_IsNil i = true -> i = INil \/ x_typed_nil X = true ->
    run_vgetter g' X h v = Ok (nil_answer g).
  Proof.
    intros C O K V N T. assert (Ty : common_GetType X i = TNil).
    { unfold common_GetType. destruct T as [-> | ->]; [cbn; now destruct (x_typed_nil X)|]. now rewrite N. }
    assert (In_ : iface_IsNil X i = true) by (unfold iface_IsNil; now rewrite N).
    destruct g; try discriminate; try congruence; injection C as <-; cbn [run_vgetter nil_answer];
      unfold value_GetObject, value_GetType, value_is, value_IsBoolVal, value_IsEmptyString, value_GetIntKindValue,
        value_GetFloat32, value_GetFloat32Value, value_GetFloat64Value, value_GetFloat64, value_GetString_content, value_GetStringValue,
        value_GetString, value_GetBool_content, value_GetBool, value_GetMap, value_GetMapValue, value_GetArray, value_GetArrayValue,
        value_GetArray, value_IsNil, value_GetErrors, value_GetFunc, rd_val; rewrite ?V; cbn [rbind rmap to_value]; rewrite ?Ty, ?In_, ?N; cbn [rbind rmap to_value];
      try reflexivity.
    - now rewrite K.
    - rewrite (nil_int k h v i V In_) by (intros ->; exact K). reflexivity.
    - rewrite (nil_int k h v i V In_) by (intros ->; exact K). reflexivity.
  Qed.

  Lemma here_name n g g' h m k v i :
    method (map_getters X) n = Some g -> method (value_getters X) n = Some g' ->
    map_GetValue h m k = Ok (Some v) -> nth_error h v = Some (CVal i) ->
    common_IsNil i = false \/ i = INil \/ x_typed_nil X = true ->
    map_get n X h m k = value_get n X h v.
  Proof.
    intros A B G V N. unfold map_get, value_get. rewrite A, B.
    destruct (same_name n g g' A B) as (C & O & K).
    destruct (common_IsNil i) eqn:E.
    - rewrite (nil_value g g' h v i C O K V E) by (destruct N as [|N]; [discriminate|exact N]).
      assert (Vi : forall Y (nr : Y) get, map_via nr get h m k = Ok nr).
      { intros. rewrite (via_here nr get h m k v i G V). now rewrite E. }
      assert (In_ : iface_IsNil X i = true) by (unfold iface_IsNil; now rewrite E).
      destruct g; try discriminate; try congruence; cbn [run_getter nil_answer];
        unfold map_GetObject, map_GetType, map_is, map_IsBoolVal, map_IsEmptyString, map_GetFloat32, map_GetFloat32Value, map_GetFloat64,
          map_GetFloat64Value, map_GetString, map_GetStringValue, map_GetBool, map_GetMap, map_GetMapValue, map_GetArrayValue, map_GetArray,
          map_GetErrors, map_GetFunc, map_GetIntKind, map_GetIntKindValue; rewrite ?Vi, ?G; cbn [rbind]; try reflexivity.
      + destruct k0; try contradiction; rewrite ?Vi; reflexivity.
      + destruct k0; try contradiction; rewrite ?Vi; reflexivity.
      + unfold value_GetMap, rd_val. rewrite V. cbn [rbind]. rewrite In_. reflexivity.
      + unfold value_GetMapValue, rd_val. rewrite V. cbn [rbind]. rewrite In_. reflexivity.
    - assert (Vi : forall Y (nr : Y) get, map_via nr get h m k = get v).
      { intros. rewrite (via_here nr get h m k v i G V). now rewrite E. }
      destruct g; try discriminate; try congruence; injection C as <-; cbn [run_getter run_vgetter];
        unfold map_GetObject, map_GetType, map_is, map_IsBoolVal, map_IsEmptyString, map_GetFloat32, map_GetFloat32Value, map_GetFloat64,
          map_GetFloat64Value, map_GetString, map_GetStringValue, map_GetBool, map_GetMap, map_GetMapValue, map_GetArrayValue, map_GetArray,
          map_GetErrors, map_GetFunc, map_GetIntKind, map_GetIntKindValue; rewrite ?Vi, ?G; cbn [rbind]; try reflexivity.
      + destruct k0; try contradiction; rewrite ?Vi; reflexivity.
      + destruct k0; try contradiction; rewrite ?Vi; reflexivity.
      + f_equal. unfold value_GetArrayValue, value_GetArray, value_IsNil, rd_val. rewrite V. cbn [rbind].
        destruct (iface_IsNil X i) eqn:Z; [reflexivity|].
        destruct i as [|s|ty [p|]|z|[z|]|a|[a|]|x|[x|]|l|l|[l|]|[l|]|e|[e|]|tm|fn|[fn|]|[tm|]|nm [d|]]; try discriminate; reflexivity.
  Qed.

  Lemma none_name n g g' h m k v :
    method (map_getters X) n = Some g -> method (value_getters X) n = Some g' ->
    map_GetValue h m k = Ok None -> nth_error h v = Some (CVal INil) ->
    map_get n X h m k = value_get n X h v.
  Proof.
    intros A B G V. unfold map_get, value_get. rewrite A, B. destruct (same_name n g g' A B) as (C & O & K).
    rewrite (nil_value g g' h v INil C O K V eq_refl (or_introl eq_refl)).
    assert (Vi : forall Y (nr : Y) get, map_via nr get h m k = Ok nr) by (intros; now apply via_none).
    destruct g; try discriminate; try congruence; cbn [run_getter nil_answer];
      unfold map_GetObject, map_GetType, map_is, map_IsBoolVal, map_IsEmptyString, map_GetFloat32, map_GetFloat32Value, map_GetFloat64,
        map_GetFloat64Value, map_GetString, map_GetStringValue, map_GetBool, map_GetMap, map_GetMapValue, map_GetArrayValue, map_GetArray,
        map_GetErrors, map_GetFunc, map_GetIntKind, map_GetIntKindValue; rewrite ?Vi, ?G; cbn [rbind]; try reflexivity.
    + destruct k0; try contradiction; rewrite ?Vi; reflexivity.
    + destruct k0; try contradiction; rewrite ?Vi; reflexivity.
  Qed.
End V.

Lemma shared_both X n :
  In n shared_names <-> method (map_getters X) n <> None /\ method (value_getters X) n <> None.
Proof.
  split.
  - assert (F : Forall (fun n => method (map_getters X) n <> None /\ method (value_getters X) n <> None) shared_names)
      by (unfold shared_names; repeat (apply Forall_cons; [split; discriminate|]); apply Forall_nil).
    rewrite Forall_forall in F. apply F.
  - intros [A B].
    assert (F : Forall (fun e => In (fst (fst e)) shared_names \/ method (value_getters X) (fst (fst e)) = None) (map_getters X)).
    { unfold map_getters.
      repeat (apply Forall_cons; [cbn [fst]; first [right; reflexivity|left; unfold shared_names; cbn [In]; tauto]|]); apply Forall_nil. }
    destruct (method (map_getters X) n) as [g|] eqn:G; [|congruence]. destruct (method_In _ _ _ G) as [l H].
    rewrite Forall_forall in F. destruct (F _ H) as [?|?]; cbn [fst] in *; [assumption|contradiction].
Qed.

Section T.
  Context (X : ext).
  Lemma nil_object_same i : nil_object i = common_IsNil i.
  Proof. reflexivity. Qed.

  Lemma reads_here h m k v i : reachable X h ->
    map_GetValue h m k = Ok (Some v) -> w_val (view h) v = Some i ->
    nil_object i = false \/ i = INil \/ x_typed_nil X = true ->
    (forall n, In n shared_names -> map_get n X h m k = value_get n X h v)
    /\ map_GetRunes X h m k = value_GetRunes X h v
    /\ (forall L, map_GetTime L X h m k = value_GetTime L X h v)
    /\ (forall L p, map_GetTimeWithDecimalPlaces L p X h m k = value_GetTimeWithDecimalPlaces L p X h v).
  Proof.
    intros R G V N. apply (im_val _ _ (view_impl _ (reachable_Inv _ _ R))) in V. split.
    - intros n Hn. apply (shared_both X) in Hn as [A B].
      destruct (method (map_getters X) n) as [g|] eqn:Eg; [|congruence].
      destruct (method (value_getters X) n) as [g'|] eqn:Eg'; [|congruence].
      eapply here_name; eauto.
    - unfold map_GetRunes, map_GetTime, map_GetTimeWithDecimalPlaces.
      assert (Z : common_IsNil i = true -> iface_IsNil X i = true) by (unfold iface_IsNil; intros ->; reflexivity).
      split; [|split; intros]; rewrite (via_here _ _ h m k v i G V); destruct (common_IsNil i); auto;
        unfold value_GetRunes, value_GetTime, value_GetTimeWithDecimalPlaces, value_time, rd_val; rewrite V; cbn [rbind]; now rewrite Z.
  Qed.
  Lemma reads_missing h m k v : reachable X h ->
    map_GetValue h m k = Ok None -> w_val (view h) v = Some INil ->
    (forall n, In n shared_names -> map_get n X h m k = value_get n X h v)
    /\ map_GetRunes X h m k = value_GetRunes X h v
    /\ (forall L, map_GetTime L X h m k = value_GetTime L X h v)
    /\ (forall L p, map_GetTimeWithDecimalPlaces L p X h m k = value_GetTimeWithDecimalPlaces L p X h v).
  Proof.
    intros R G V. apply (im_val _ _ (view_impl _ (reachable_Inv _ _ R))) in V. split.
    - intros n Hn. apply (shared_both X) in Hn as [A B].
      destruct (method (map_getters X) n) as [g|] eqn:Eg; [|congruence].
      destruct (method (value_getters X) n) as [g'|] eqn:Eg'; [|congruence].
      eapply none_name; eauto.
    - unfold map_GetRunes, map_GetTime, map_GetTimeWithDecimalPlaces.
      split; [|split; intros]; rewrite (via_none _ _ h m k G);
        unfold value_GetRunes, value_GetTime, value_GetTimeWithDecimalPlaces, value_time, rd_val; rewrite V; reflexivity.
  Qed.
End T.
