(** * Lists of pointers *)
From Coq Require Import Ascii String List NArith ZArith Bool Lia.
From Verif Require Import GoStr StrLemmas GoNum GoFloat Heap Common ValueModel ArrayModel MapModel GetterModel PtrModel PtrListModel
  SpecDict DictLemmas SpecWorld SpecNum SpecArray Inv World Reach MapFacts GetterFacts GetterFrame GetterLift GetterMore ObjFacts
  JsonModel ParserModel SpecFloat SpecDoc SpecText SpecToken SpecParse SpecPtr PtrFacts SpecPtrList ArrayFacts ArrayGet ArrayMore.
Import ListNotations.

Section S.
  Context (X : ext).

  Definition gmap {A B} (f : A -> B) (g : gres (option A)) : gres (option B) :=
    match g with GVal o => GVal (option_map f o) | GErr e => GErr e end.

  (** What the getter of an element points to. *)
  Definition value_scalar (t : stype) (h : heap) (v : loc) : res (gres (option scalar)) :=
    match t with
    | TyStr => rmap (gmap SStr) (value_GetString_content X h v)
    | TyBool => rmap (gmap SBool) (value_GetBool_content X h v)
    | TyInt k => rmap (gmap (SInt k)) (value_GetIntKind k X h v)
    | TyFlt F32 => rmap (gmap (SFlt F32)) (value_GetFloat32 X h v)
    | TyFlt F64 => rmap (gmap (SFlt F64)) (value_GetFloat64 X h v)
    end.

  Lemma value_scalar_agree t h h' v i : Inv h -> agree h h' -> nth_error h v = Some (CVal i) ->
    value_scalar t h' v = value_scalar t h v.
  Proof.
    intros I A Hv. destruct t as [| |kd|[|]]; cbn [value_scalar].
    - now rewrite (agree_GetString X h h' I A v i Hv).
    - now rewrite (agree_GetBool X h h' I A v i Hv).
    - now rewrite (agree_GetIntKind X h h' I A v i Hv).
    - unfold value_GetFloat32. now rewrite (agree_GetFloat64 X h h' I A v i Hv).
    - now rewrite (agree_GetFloat64 X h h' I A v i Hv).
  Qed.

  (** The stored pointer that is handed out, if one is. *)
  Definition stored (t : stype) (i : iface) : option loc :=
    match t, i with
    | TyStr, IPtr TyStr (Some q) | TyBool, IPtr TyBool (Some q) => Some q
    | _, _ => None
    end.

  Lemma stored_iff t i q : stored t i = Some q <-> ((t = TyStr \/ t = TyBool) /\ i = IPtr t (Some q)).
  Proof.
    split.
    - destruct t as [| |kd|[|]]; cbn; try discriminate; destruct i as [| |[] [p|]| | | | | | | | | | | | | | | | |]; try discriminate;
        intros [= ->]; auto.
    - intros [[-> | ->] ->]; reflexivity.
  Qed.
  Lemma stored_none t i : stored t i = None <-> ~ has_pointer t i.
  Proof.
    split.
    - intros E (T & q & ->). rewrite (proj2 (stored_iff t _ q)) in E by auto. discriminate.
    - intros N. destruct (stored t i) as [q|] eqn:E; auto. apply stored_iff in E as (T & ->). destruct N. split; eauto.
  Qed.

  Definition outcome (t : stype) (i : iface) (r : res (gres (option scalar))) (h : heap) : res (gres (option loc) * heap) :=
    g <-r r ;;
    match g with
    | GErr e => Ok (GErr e, h)
    | GVal None => Ok (GVal None, h)
    | GVal (Some s) => match stored t i with
                       | Some q => Ok (GVal (Some q), h)
                       | None => Ok (GVal (Some (length h)), h ++ [CPtr s])
                       end
    end.

  Lemma in_new_outcome {A} t i (mk : A -> scalar) r h : stored t i = None ->
    in_new mk r h = outcome t i (rmap (gmap mk) r) h.
  Proof. intros E. unfold in_new, outcome. destruct r as [[[a|]|e]| | |]; cbn; rewrite ?E; reflexivity. Qed.

  Lemma value_ptr_outcome t h v i : Inv h -> nth_error h v = Some (CVal i) ->
    value_ptr t X v h = outcome t i (value_scalar t h v) h.
  Proof.
    intros I Hv. destruct t as [| |kd|[|]]; cbn [value_ptr value_scalar]; try (apply in_new_outcome; reflexivity).
    - unfold value_GetString_content, value_GetString, outcome. rewrite (proj2 (rd_val_iff _ _ _) Hv). cbn [rbind].
      destruct (iface_IsNil X i); [reflexivity|].
      destruct i as [|[]|[] [q|]| | | | | | | | | | | | | | | | |]; cbn -[rd_ptr]; try reflexivity.
      + now rewrite rd_ptr_app.
      + destruct (inv_val h I _ _ Hv) as (s0 & E0 & T0). rewrite (proj2 (rd_ptr_iff _ _ _) E0). destruct s0; try discriminate. reflexivity.
    - unfold value_GetBool_content, value_GetBool, outcome. rewrite (proj2 (rd_val_iff _ _ _) Hv). cbn [rbind].
      destruct (iface_IsNil X i); [reflexivity|].
      destruct i as [|[]|[] [q|]| | | | | | | | | | | | | | | | |]; cbn -[rd_ptr deref]; try reflexivity.
      all: try (now rewrite rd_ptr_app).
      all: try (destruct (deref h _) as [[[]|]| | |]; cbn -[rd_ptr]; try reflexivity; destruct (bool_of_text _); cbn -[rd_ptr]; try reflexivity;
        now rewrite rd_ptr_app).
      destruct (inv_val h I _ _ Hv) as (s0 & E0 & T0). rewrite (proj2 (rd_ptr_iff _ _ _) E0). destruct s0; try discriminate. reflexivity.
  Qed.

  (** ** States with more variables *)
  Definition more (h : heap) (vs : list scalar) : heap := h ++ map CPtr vs.
  Lemma more_more h a b : more (more h a) b = more h (a ++ b).
  Proof. unfold more. now rewrite map_app, app_assoc. Qed.
  Lemma more_one h s : h ++ [CPtr s] = more h [s].
  Proof. reflexivity. Qed.
  Lemma more_nil h : more h [] = h.
  Proof. apply app_nil_r. Qed.
  Lemma more_len h vs : length (more h vs) = length h + length vs.
  Proof. unfold more. now rewrite app_length, map_length. Qed.
  Lemma more_old h vs l : l < length h -> nth_error (more h vs) l = nth_error h l.
  Proof. intros L. unfold more. now apply nth_error_app1. Qed.
  Lemma more_cell h vs l c : nth_error h l = Some c -> nth_error (more h vs) l = Some c.
  Proof. intros H. rewrite more_old; auto. apply nth_error_Some. congruence. Qed.
  Lemma more_agree h vs : agree h (more h vs).
  Proof. repeat split; intros; now apply more_cell. Qed.
  Lemma more_new h vs n : nth_error (more h vs) (length h + n) = option_map CPtr (nth_error vs n).
  Proof. unfold more. rewrite nth_error_app2 by lia. replace (length h + n - length h) with n by lia. apply nth_error_map. Qed.
  Lemma more_state h vs : reachable X h -> reachable X (more h vs) /\ unchanged h (more h vs).
  Proof.
    revert h. induction vs as [|s vs IH]; intros h R.
    - rewrite more_nil. split; auto. apply unchanged_refl.
    - change (s :: vs) with ([s] ++ vs). rewrite <- more_more.
      destruct (new_var_state X h s R) as (R1 & U1 & _). destruct (IH _ R1) as (R2 & U2). split; auto.
      intros l Hl. assert (Hl' : old_in (more h [s]) l) by (unfold old_in in *; rewrite more_len; lia).
      destruct (U1 l Hl) as (A & B & C & D), (U2 l Hl') as (A' & B' & C' & D').
      unfold more in *. cbn [map] in *. repeat split; congruence.
  Qed.

  (** The pointers handed out for the elements [l]; [n] is the next free place. *)
  Inductive hands (t : stype) (h : heap) : nat -> list (option loc) -> list (option scalar) -> list (option loc) -> list scalar -> Prop :=
  | hd_nil n : hands t h n [] [] [] []
  | hd_none n l cs ps vs : hands t h n l cs ps vs -> hands t h n (None :: l) (None :: cs) (None :: ps) vs
  | hd_null n v l cs ps vs : hands t h n l cs ps vs -> hands t h n (Some v :: l) (None :: cs) (None :: ps) vs
  | hd_stored n v i q s l cs ps vs :
      nth_error h v = Some (CVal i) -> stored t i = Some q -> nth_error h q = Some (CPtr s) -> stype_of s = t ->
      hands t h n l cs ps vs -> hands t h n (Some v :: l) (Some s :: cs) (Some q :: ps) vs
  | hd_new n v i s l cs ps vs :
      nth_error h v = Some (CVal i) -> stored t i = None -> stype_of s = t ->
      hands t h (S n) l cs ps vs -> hands t h n (Some v :: l) (Some s :: cs) (Some n :: ps) (s :: vs).

  Lemma value_scalar_type t h v s : value_scalar t h v = Ok (GVal (Some s)) -> stype_of s = t.
  Proof.
    destruct t as [| |kd|[|]]; cbn [value_scalar].
    all: match goal with |- rmap _ ?r = _ -> _ => destruct r as [[[a|]|e]| | |]; cbn; try discriminate; intros [= <-]; reflexivity end.
  Qed.

  Lemma value_scalar_stored t h v i q s : Inv h -> nth_error h v = Some (CVal i) -> stored t i = Some q ->
    value_scalar t h v = Ok (GVal (Some s)) -> nth_error h q = Some (CPtr s).
  Proof.
    intros I Hv E. apply stored_iff in E as (T & ->). destruct (inv_val h I _ _ Hv) as (s0 & E0 & T0).
    destruct T as [-> | ->]; cbn [value_scalar].
    - unfold value_GetString_content, value_GetString. rewrite (proj2 (rd_val_iff _ _ _) Hv). cbn [rbind].
      destruct (iface_IsNil X _); [discriminate|]. cbn -[rd_ptr]. rewrite (proj2 (rd_ptr_iff _ _ _) E0). destruct s0; try discriminate.
      cbn. intros [= <-]. exact E0.
    - unfold value_GetBool_content, value_GetBool. rewrite (proj2 (rd_val_iff _ _ _) Hv). cbn [rbind].
      destruct (iface_IsNil X _); [discriminate|]. cbn -[rd_ptr]. rewrite (proj2 (rd_ptr_iff _ _ _) E0). destruct s0; try discriminate.
      cbn. intros [= <-]. exact E0.
  Qed.

  Lemma value_scalar_proper t h v : value_scalar t h v <> Ok (GErr []).
  Proof.
    intros H.
    assert (G : forall A (mk : A -> scalar) r, rmap (gmap mk) r = Ok (GErr []) -> r = Ok (GErr [])).
    { intros A mk [[[a|]|e]| | |]; cbn; congruence. }
    destruct t as [| |kd|[|]]; cbn [value_scalar] in H; apply G in H.
    - exact (GetString_proper _ _ _ _ H eq_refl).
    - exact (GetBool_proper _ _ _ _ H eq_refl).
    - exact (GetIntKind_proper _ _ _ _ _ H eq_refl).
    - exact (GetFloat32_proper _ _ _ _ H eq_refl).
    - exact (GetFloat64_proper _ _ _ _ H eq_refl).
  Qed.

  Lemma collect_hands t h l : reachable X h -> (forall v, In (Some v) l -> exists i, nth_error h v = Some (CVal i)) ->
    forall vs0,
    match collect_ptr (value_scalar t h) l with
    | Ok (cs, es) => exists ps vs, collect_ptrs t X l (more h vs0) = Ok ((ps, es), more h (vs0 ++ vs))
                       /\ (es = [] -> hands t h (length h + length vs0) l cs ps vs)
    | Panic => collect_ptrs t X l (more h vs0) = Panic
    | Stuck => collect_ptrs t X l (more h vs0) = Stuck
    | NoFuel => collect_ptrs t X l (more h vs0) = NoFuel
    end.
  Proof.
    intros R. pose proof (reachable_Inv _ _ R) as I. induction l as [|[v|] l IH]; intros Hl vs0; cbn [collect_ptr collect_ptrs].
    - exists [], []. rewrite app_nil_r. split; [reflexivity|]. intros _. constructor.
    - destruct (Hl v (or_introl eq_refl)) as (i & Hv). assert (Hl' : forall v, In (Some v) l -> exists i, nth_error h v = Some (CVal i)) by (intros; apply Hl; now right).
      specialize (IH Hl').
      destruct (more_state h vs0 R) as (R0 & _).
      pose proof (value_ptr_outcome t _ v i (reachable_Inv _ _ R0) (more_cell _ vs0 _ _ Hv)) as EP.
      rewrite (value_scalar_agree t h _ v i I (more_agree h vs0) Hv) in EP. unfold outcome in EP. unfold bind.
      destruct (value_scalar t h v) as [[[s|]|e]| | |] eqn:Ev; cbn [rbind] in *; try (rewrite EP; reflexivity).
      + destruct (stored t i) as [q|] eqn:Es; cbn [rbind] in *.
        * specialize (IH vs0). rewrite EP. destruct (collect_ptr (value_scalar t h) l) as [[cs es]| | |]; cbn [rbind]; try (rewrite IH; reflexivity).
          destruct IH as (ps & vs & E & H). rewrite E. cbn. exists (Some q :: ps), vs. split; [reflexivity|].
          intros ->. eapply hd_stored; eauto using value_scalar_type, value_scalar_stored.
        * specialize (IH (vs0 ++ [s])). rewrite EP, more_one, more_more.
          destruct (collect_ptr (value_scalar t h) l) as [[cs es]| | |]; cbn [rbind]; try (rewrite IH; reflexivity).
          destruct IH as (ps & vs & E & H). rewrite E. cbn. exists (Some (length (more h vs0)) :: ps), (s :: vs).
          split; [rewrite <- app_assoc; reflexivity|].
          intros Le. rewrite more_len. eapply hd_new; eauto using value_scalar_type.
          specialize (H Le). rewrite app_length in H. cbn in H. replace (S (length h + length vs0)) with (length h + (length vs0 + 1)) by lia. exact H.
      + specialize (IH vs0). rewrite EP. destruct (collect_ptr (value_scalar t h) l) as [[cs es]| | |]; cbn [rbind]; try (rewrite IH; reflexivity).
        destruct IH as (ps & vs & E & H). rewrite E. cbn. exists (None :: ps), vs. split; [reflexivity|].
        intros ->. now apply hd_null, H.
      + specialize (IH vs0). rewrite EP. destruct (collect_ptr (value_scalar t h) l) as [[cs es]| | |]; cbn [rbind]; try (rewrite IH; reflexivity).
        destruct IH as (ps & vs & E & H). rewrite E. cbn. exists ps, vs. split; [reflexivity|].
        intros En. apply app_eq_nil in En as [-> _]. destruct (value_scalar_proper _ _ _ Ev).
    - specialize (IH (fun v H => Hl v (or_intror H)) vs0). unfold bind.
      destruct (collect_ptr (value_scalar t h) l) as [[cs es]| | |]; cbn [rbind]; try (rewrite IH; reflexivity).
      destruct IH as (ps & vs & E & H). rewrite E. cbn. exists (None :: ps), vs. split; [reflexivity|].
      intros Le. now apply hd_none, H.
  Qed.

  (** ** The lists of C37 *)
  Lemma collect_map {A} (mk : A -> scalar) (get : loc -> res (gres (option A))) l :
    collect_ptr (fun v => rmap (gmap mk) (get v)) l = rmap (fun q => (map (option_map mk) (fst q), snd q)) (collect_ptr get l).
  Proof.
    induction l as [|[v|] l IH]; cbn [collect_ptr]; [reflexivity| |].
    - destruct (get v) as [[x|e]| | |]; cbn; try reflexivity; rewrite IH; destruct (collect_ptr get l) as [[q es]| | |]; reflexivity.
    - rewrite IH. destruct (collect_ptr get l) as [[q es]| | |]; reflexivity.
  Qed.
  Lemma collect_ext {A} (f g : loc -> res (gres (option A))) l : (forall v, f v = g v) -> collect_ptr f l = collect_ptr g l.
  Proof. intros E. induction l as [|[v|] l IH]; cbn; rewrite ?E, ?IH; auto. Qed.

  Definition assigned (t : stype) : Prop := t <> TyInt KInt /\ t <> TyInt KUInt.

  Lemma listed_collect t h a l : assigned t -> nth_error h a = Some (CArr l) ->
    listed t X h a = rmap finish (collect_ptr (value_scalar t h) l).
  Proof.
    intros (N1 & N2) Ha.
    assert (G : forall A (mk : A -> scalar) (get : loc -> res (gres (option A))),
      as_scalars mk (arr_collect_ptr get h a) = rmap finish (collect_ptr (fun v => rmap (gmap mk) (get v)) l)).
    { intros A mk get. unfold as_scalars, arr_collect_ptr. rewrite (proj2 (rd_arr_iff _ _ _) Ha). cbn [rbind]. rewrite collect_map.
      destruct (collect_ptr get l) as [[q [|e es]]| | |]; reflexivity. }
    destruct t as [| |kd|[|]]; cbn [listed value_scalar]; try apply G.
    destruct kd; try congruence; apply G.
  Qed.

  Lemma arr_ptrs_collect t h a l : assigned t -> nth_error h a = Some (CArr l) ->
    arr_ptrs t X a h = rbind (collect_ptrs t X l h) (fun q => Ok (finish (fst q), snd q)).
  Proof.
    intros (N1 & N2) Ha. unfold arr_ptrs.
    assert (G : bind (mlift (fun h => rd_arr h a)) (fun l => bind (collect_ptrs t X l) (fun q => ret (finish q))) h
      = rbind (collect_ptrs t X l h) (fun q => Ok (finish (fst q), snd q))).
    { unfold bind, mlift. rewrite (proj2 (rd_arr_iff _ _ _) Ha). cbn [rbind]. destruct (collect_ptrs t X l h) as [[q h1]| | |]; reflexivity. }
    destruct t as [| |[]|[|]]; try congruence; exact G.
  Qed.

  (** The whole list. *)
  Lemma ptrs_listed t h a l : assigned t -> reachable X h -> w_arr (view h) a = Some l ->
    match listed t X h a with
    | Ok (GVal cs) => exists ps vs, arr_ptrs t X a h = Ok (GVal ps, more h vs) /\ hands t h (length h) l cs ps vs
    | Ok (GErr e) => e <> [] /\ exists vs, arr_ptrs t X a h = Ok (GErr e, more h vs)
    | Panic => arr_ptrs t X a h = Panic
    | Stuck => arr_ptrs t X a h = Stuck
    | NoFuel => arr_ptrs t X a h = NoFuel
    end.
  Proof.
    intros A R Ha. pose proof (reachable_Inv _ _ R) as I. pose proof (arr_cell _ _ _ I Ha) as Ca.
    rewrite (listed_collect t h a l A Ca), (arr_ptrs_collect t h a l A Ca).
    assert (Hl : forall v, In (Some v) l -> exists i, nth_error h v = Some (CVal i)) by (intros v Hv; destruct (elem_cell _ _ _ _ I Ha Hv) as (i & ? & _); eauto).
    pose proof (collect_hands t h l R Hl []) as C. rewrite more_nil in C.
    destruct (collect_ptr (value_scalar t h) l) as [[cs es]| | |]; cbn [rmap rbind]; try (rewrite C; reflexivity).
    destruct C as (ps & vs & E & H). rewrite E. cbn. unfold finish. cbn. destruct es as [|e es].
    - exists ps, vs. split; [reflexivity|]. specialize (H eq_refl). now rewrite Nat.add_0_r in H.
    - split; [discriminate|]. now exists vs.
  Qed.

  (** ** What the pointers are *)
  Lemma hands_lt t h n l cs ps vs : hands t h n l cs ps vs -> forall j q, nth_error ps j = Some (Some q) ->
    (q < length h \/ n <= q).
  Proof.
    induction 1; intros [|j] r Hj; cbn in Hj; try discriminate; eauto.
    - injection Hj as ->. left. apply nth_error_Some. congruence.
    - injection Hj as ->. right. lia.
    - destruct (IHhands _ _ Hj); [auto|right; lia].
  Qed.

  Lemma hands_entry t h n l cs ps vs : hands t h n l cs ps vs -> forall j q, nth_error ps j = Some (Some q) ->
    exists v i s, nth_error l j = Some (Some v) /\ nth_error h v = Some (CVal i) /\ nth_error cs j = Some (Some s) /\ stype_of s = t
      /\ ((stored t i = Some q /\ nth_error h q = Some (CPtr s))
          \/ (stored t i = None /\ exists d, q = n + d /\ nth_error vs d = Some s)).
  Proof.
    induction 1; intros [|j] r Hj; cbn in Hj; try discriminate; cbn [nth_error]; eauto.
    - injection Hj as <-. exists v, i, s. auto 8.
    - injection Hj as <-. exists v, i, s. do 4 (split; auto). right. split; auto. exists 0. split; [lia|reflexivity].
    - destruct (IHhands _ _ Hj) as (v' & i' & s' & A & B & C & D & E). exists v', i', s'. do 4 (split; auto).
      destruct E as [E|(E & d & -> & E')]; [auto|]. right. split; auto. exists (S d). split; [lia|exact E'].
  Qed.

  Lemma hands_new_lt t h n l cs ps vs : hands t h n l cs ps vs -> length h <= n -> forall j q, nth_error ps j = Some (Some q) -> n <= q ->
    forall j', nth_error ps j' = Some (Some q) -> j' = j.
  Proof.
    intros H. induction H; intros L [|j] r Hj Lr [|j'] Hj'; cbn in Hj, Hj'; try discriminate; try reflexivity;
      try (f_equal; eapply IHhands; eauto; fail).
    - injection Hj as ->. assert (r < length h) by (apply nth_error_Some; congruence). lia.
    - injection Hj' as ->. assert (r < length h) by (apply nth_error_Some; congruence). lia.
    - injection Hj as <-. destruct (hands_lt _ _ _ _ _ _ _ H2 _ _ Hj'); lia.
    - injection Hj' as <-. destruct (hands_lt _ _ _ _ _ _ _ H2 _ _ Hj); lia.
    - f_equal. destruct (Nat.eq_dec r n) as [->|N]; [destruct (hands_lt _ _ _ _ _ _ _ H2 _ _ Hj); lia|].
      eapply IHhands; eauto; lia.
  Qed.

  Lemma hands_points t h l cs ps vs : reachable X h -> hands t h (length h) l cs ps vs ->
    Forall2 (points_to (view (more h vs))) ps cs.
  Proof.
    intros R H. destruct (more_state h vs R) as (R1 & _). pose proof (view_impl _ (reachable_Inv _ _ R1)) as V1.
    assert (G : forall n l cs ps us, hands t h n l cs ps us -> forall pre, vs = pre ++ us -> n = length h + length pre ->
      Forall2 (points_to (view (more h vs))) ps cs).
    { clear H l cs ps. induction 1; intros pre Ev En; constructor; eauto; cbn [points_to]; auto.
      - split; [discriminate|]. apply (im_var _ _ V1). now apply more_cell.
      - split; [discriminate|]. apply (im_var _ _ V1). subst n vs. rewrite more_new, nth_error_app2, Nat.sub_diag by lia. reflexivity.
      - eapply (IHhands (pre ++ [s])); [rewrite <- app_assoc; exact Ev|]. rewrite app_length. cbn. lia. }
    eapply (G _ _ _ _ _ H []); auto.
  Qed.

  (** ** The theorems *)
  Lemma arr_ptrs_unassigned t h a : ~ assigned t -> arr_ptrs t X a h = Panic.
  Proof.
    intros N. destruct t as [| |[]|]; try reflexivity; exfalso; apply N; split; discriminate.
  Qed.
  Lemma listed_unassigned t h a : ~ assigned t -> listed t X h a = Panic.
  Proof.
    intros N. destruct t as [| |[]|]; try reflexivity; exfalso; apply N; split; discriminate.
  Qed.
  Lemma assigned_dec t : assigned t \/ ~ assigned t.
  Proof.
    destruct t as [| |[]|]; try (left; split; discriminate); right; intros [A B]; congruence.
  Qed.

  Lemma list_values t h a l : reachable X h -> w_arr (view h) a = Some l ->
    (forall cs, listed t X h a = Ok (GVal cs) -> exists ps h1, arr_ptrs t X a h = Ok (GVal ps, h1)
       /\ reachable X h1 /\ unchanged h h1 /\ Forall2 (points_to (view h1)) ps cs)
    /\ (forall e, listed t X h a = Ok (GErr e) -> exists h1, arr_ptrs t X a h = Ok (GErr e, h1) /\ reachable X h1 /\ unchanged h h1)
    /\ (listed t X h a = Panic -> arr_ptrs t X a h = Panic).
  Proof.
    intros R Ha. destruct (assigned_dec t) as [A|N].
    - pose proof (ptrs_listed t h a l A R Ha) as P. destruct (listed t X h a) as [[cs|e]| | |]; (split; [|split]); try discriminate.
      + intros cs' [= <-]. destruct P as (ps & vs & E & H). exists ps, (more h vs). split; auto.
        destruct (more_state h vs R) as (R1 & U1). split; auto. split; auto. eapply hands_points; eauto.
      + intros e' [= <-]. destruct P as (_ & vs & E). exists (more h vs). split; auto. apply more_state; auto.
      + auto.
    - rewrite (listed_unassigned t h a N), (arr_ptrs_unassigned t h a N). split; [|split]; try discriminate. auto.
  Qed.

  Lemma list_result t h a l ps h1 : reachable X h -> w_arr (view h) a = Some l -> arr_ptrs t X a h = Ok (GVal ps, h1) ->
    assigned t /\ exists cs vs, listed t X h a = Ok (GVal cs) /\ h1 = more h vs /\ hands t h (length h) l cs ps vs.
  Proof.
    intros R Ha E. destruct (assigned_dec t) as [A|N]; [|rewrite (arr_ptrs_unassigned t h a N) in E; discriminate]. split; auto.
    pose proof (ptrs_listed t h a l A R Ha) as P. destruct (listed t X h a) as [[cs|e]| | |]; try congruence.
    - destruct P as (ps' & vs & E' & H). rewrite E in E'. injection E' as <- ->. eauto 6.
    - destruct P as (_ & vs & E'). congruence.
  Qed.

  Lemma list_write t h a l ps h1 n p s : reachable X h -> w_arr (view h) a = Some l ->
    arr_ptrs t X a h = Ok (GVal ps, h1) -> nth_error ps n = Some (Some p) -> stype_of s = t ->
    exists v i h2, nth_error l n = Some (Some v) /\ w_val (view h) v = Some i
      /\ run_call (AVarSet p s) h1 = Ok (ODone, h2) /\ reachable X h2
      /\ (has_pointer t i -> i = IPtr t (Some p) /\ w_arr (view h2) a = Some l /\ elem_scalar (view h2) (Some v) = Some s)
      /\ (~ has_pointer t i -> new_in h p /\ unchanged h h2)
      /\ (forall n' q, nth_error ps n' = Some (Some q) -> q <> p -> w_var (view h2) q = w_var (view h1) q).
  Proof.
    intros R Ha E Hn T. destruct (list_result t h a l ps h1 R Ha E) as (_ & cs & vs & _ & -> & H).
    destruct (hands_entry _ _ _ _ _ _ _ H _ _ Hn) as (v & i & s0 & Hl & Hv & _ & T0 & C).
    pose proof (reachable_Inv _ _ R) as I. pose proof (view_impl _ I) as V.
    destruct (more_state h vs R) as (R1 & U1). pose proof (reachable_Inv _ _ R1) as I1. pose proof (view_impl _ I1) as V1.
    assert (Hp : w_var (view (more h vs)) p = Some s0).
    { apply (im_var _ _ V1). destruct C as [(_ & Hq)|(_ & d & -> & Hd)]; [now apply more_cell|]. now rewrite more_new, Hd. }
    destruct (run_one X _ (AVarSet p s) R1) as (h2 & E2 & R2 & P2); [exists s0; split; [exact Hp|congruence]|].
    pose proof (view_impl _ (reachable_Inv _ _ R2)) as V2.
    destruct (impl_eq _ _ _ V2 P2) as (_ & Em & Ea & Ev & Eq).
    assert (Wv : w_val (view h) v = Some i) by (apply (im_val _ _ V); exact Hv).
    assert (O : forall x c, nth_error h x = Some c -> old_in h x) by (intros x c Hx; unfold old_in; apply nth_error_Some; congruence).
    exists v, i, h2. split; auto. split; auto. split; [exact E2|]. split; auto.
    remember (view h2) as w2. remember (view (more h vs)) as w1. remember (view h) as w. cbn in Em, Ea, Ev, Eq.
    split; [|split].
    - intros (Tc & q & ->). destruct C as [(Cs & Hq)|(Cs & _)].
      2: { exfalso. rewrite (proj2 (stored_iff t _ q)) in Cs by auto. discriminate. }
      apply stored_iff in Cs as (_ & [= ->]). split; auto. split.
      + rewrite Ea. destruct (U1 a) as (_ & B & _). { eapply O. apply (im_arr _ _ V), Ha. } congruence.
      + unfold elem_scalar. rewrite Ev. destruct (U1 v (O _ _ Hv)) as (_ & _ & B & _). rewrite <- Heqw1, <- Heqw in B. rewrite B, Wv. cbn. rewrite Eq. unfold put. now rewrite Nat.eqb_refl.
    - intros Np. destruct C as [(Cs & Hq)|(Cs & d & -> & Hd)].
      { exfalso. apply stored_iff in Cs as (Tc & ->). apply Np. split; eauto. }
      split; [unfold new_in; lia|]. intros x Hx. destruct (U1 x Hx) as (A & B & C & D). rewrite <- Heqw2, Em, Ea, Ev, Eq.
      unfold put. unfold old_in in Hx. rewrite (proj2 (Nat.eqb_neq x (length h + d))) by lia. rewrite Heqw1, Heqw in *. auto.
    - intros n' q _ Nq. rewrite Eq. unfold put. now rewrite (proj2 (Nat.eqb_neq q p)).
  Qed.

  Lemma list_apart t h a l ps h1 n n' p : reachable X h -> w_arr (view h) a = Some l ->
    arr_ptrs t X a h = Ok (GVal ps, h1) -> nth_error ps n = Some (Some p) -> nth_error ps n' = Some (Some p) -> n <> n' ->
    (t = TyStr \/ t = TyBool) /\ exists v v', nth_error l n = Some (Some v) /\ nth_error l n' = Some (Some v')
      /\ w_val (view h) v = Some (IPtr t (Some p)) /\ w_val (view h) v' = Some (IPtr t (Some p)).
  Proof.
    intros R Ha E Hn Hn' N. destruct (list_result t h a l ps h1 R Ha E) as (_ & cs & vs & _ & -> & H).
    pose proof (view_impl _ (reachable_Inv _ _ R)) as V.
    destruct (hands_entry _ _ _ _ _ _ _ H _ _ Hn) as (v & i & s & Hl & Hv & _ & _ & C).
    destruct (hands_entry _ _ _ _ _ _ _ H _ _ Hn') as (v' & i' & s' & Hl' & Hv' & _ & _ & C').
    assert (L : ~ length h <= p) by (intros L; apply N; symmetry; exact (hands_new_lt _ _ _ _ _ _ _ H (le_n _) _ _ Hn L _ Hn')).
    destruct C as [(Cs & _)|(_ & d & -> & _)]; [|lia]. destruct C' as [(Cs' & _)|(_ & d & -> & _)]; [|lia].
    apply stored_iff in Cs as (Tc & ->). apply stored_iff in Cs' as (_ & ->). split; auto. exists v, v'.
    do 2 (split; auto). split; apply (im_val _ _ V); auto.
  Qed.

  Lemma map_list t h m k : assigned t -> reachable X h -> has (w_map (view h)) m ->
    (absent (view h) m k = true -> map_ptrs t X m k h = Ok (GVal None, h))
    /\ (forall a, SpecWorld.object_at (view h) m k = Some (IArr a) \/ SpecWorld.object_at (view h) m k = Some (IPArr (Some a)) ->
        forall r h1, arr_ptrs t X a h = Ok (r, h1) ->
        map_ptrs t X m k h = Ok (match r with GVal l => GVal (Some l) | GErr e => GErr e end, h1)).
  Proof.
    intros (N1 & N2) R Hm. destruct (map_arrays X h m k R Hm) as (A & B & _).
    assert (D : map_ptrs t X m k h
      = bind (mlift (fun h => map_GetArray X h m k)) (fun r => match r with
          | GErr e => ret (GErr e)
          | GVal None => ret (GVal None)
          | GVal (Some a) => bind (arr_ptrs t X a) (fun q => ret (match q with GVal l => GVal (Some l) | GErr e => GErr e end))
          end) h) by (destruct t as [| |[]|[|]]; try congruence; reflexivity).
    split.
    - intros Ab. destruct (A Ab _ (fun _ a => Ok (GVal [a]))) as (E & _). unfold map_array_of in E. rewrite D. unfold bind, mlift.
      destruct (map_GetArray X h m k) as [[[a|]|e]| | |]; cbn in E; try discriminate. reflexivity.
    - intros a Oa r h1 E1. destruct (B a Oa _ (fun _ a => Ok (GVal [a])) (GVal [a]) eq_refl) as (E & _). unfold map_array_of in E.
      rewrite D. unfold bind, mlift. destruct (map_GetArray X h m k) as [[[a'|]|e]| | |]; cbn in E; try discriminate.
      injection E as ->. cbn. rewrite E1. destruct r; reflexivity.
  Qed.
End S.
