(** * Two heaps with the same content behave alike *)
From Coq Require Import Ascii String List NArith ZArith Bool Lia.
From Verif Require Import GoStr StrLemmas GoNum GoFloat Heap Common ValueModel ArrayModel MapModel JsonModel ParserModel
  GetterModel NamedModel PtrModel PtrListModel TimeModel SpecDict DictLemmas SpecWorld Inv World SpecAlike ClientModel.
Import ListNotations.

(** ** Relations *)

Definition entry_rel (p : links) (o o' : option (option nat)) : Prop :=
  match o, o' with
  | None, None => True
  | Some a, Some b => same_handle p a b
  | _, _ => False
  end.
Definition mobj_rel (p : links) (m m' : mobj) : Prop :=
  m_keys m = m_keys m' /\ In (m_vals m, m_vals m') p
  /\ forall k, entry_rel p (tbl_get (m_tbl m) k) (tbl_get (m_tbl m') k).
Definition cell_rel (p : links) (c c' : cell) : Prop :=
  match c, c' with
  | CPtr s, CPtr s' => s = s'
  | CVal i, CVal i' => same_held p i i'
  | CMap m, CMap m' => mobj_rel p m m'
  | CArr l, CArr l' => Forall2 (same_handle p) l l'
  | _, _ => False
  end.
Definition hrel (p : links) (h h' : heap) : Prop :=
  one_to_one p /\
  forall a b, In (a, b) p -> exists c c', nth_error h a = Some c /\ nth_error h' b = Some c' /\ cell_rel p c c'.

Record grows (p : links) (h h' : heap) (q : links) (k k' : heap) : Prop := {
  gr_incl : incl p q;
  gr_rel : hrel q k k';
  gr_new : forall a b, In (a, b) q -> In (a, b) p \/ (length h <= a /\ length h' <= b);
  gr_len : length h <= length k;
  gr_len' : length h' <= length k';
  gr_frame : forall a, a < length h -> (forall b, ~ In (a, b) p) -> nth_error k a = nth_error h a }.

Definition qrel {A B} (R : A -> B -> Prop) (x : res A) (y : res B) : Prop :=
  match x, y with
  | Ok a, Ok b => R a b
  | Panic, Panic | Stuck, Stuck | NoFuel, NoFuel => True
  | _, _ => False
  end.
Definition mrel {A B} (p : links) (R : links -> A -> B -> Prop) (x : M A) (y : M B) : Prop :=
  forall q h h', incl p q -> hrel q h h' ->
    qrel (fun s t => exists q', grows q h h' q' (snd s) (snd t) /\ R q' (fst s) (fst t)) (x h) (y h').
Definition grel {A B} (R : A -> B -> Prop) (x : gres A) (y : gres B) : Prop :=
  match x, y with
  | GVal a, GVal b => R a b
  | GErr e, GErr e' => e = e'
  | _, _ => False
  end.
Definition req {A} : links -> A -> A -> Prop := fun _ => eq.

Lemma grows_refl p h h' : hrel p h h' -> grows p h h' p h h'.
Proof. intros H. split; auto. apply incl_refl. Qed.
Lemma grows_trans p h h' q k k' r l l' :
  grows p h h' q k k' -> grows q k k' r l l' -> grows p h h' r l l'.
Proof.
  intros [A1 A2 A3 A4 A5 A6] [B1 B2 B3 B4 B5 B6]. split; auto; try lia.
  - eapply incl_tran; eauto.
  - intros a b H. destruct (B3 _ _ H) as [K|K]; [apply A3; auto | right; lia].
  - intros a La N. rewrite B6; auto; try lia.
    intros b K. destruct (A3 _ _ K) as [U|U]; [exact (N _ U) | lia].
Qed.

(** ** Combinators *)

Lemma qrel_bind {A B C D} (R : A -> B -> Prop) (S : C -> D -> Prop) x y f g :
  qrel R x y -> (forall a b, R a b -> qrel S (f a) (g b)) -> qrel S (rbind x f) (rbind y g).
Proof. destruct x, y; cbn; intros H K; auto; tauto. Qed.
Lemma qrel_imp {A B} (R S : A -> B -> Prop) x y : (forall a b, R a b -> S a b) -> qrel R x y -> qrel S x y.
Proof. destruct x, y; cbn; auto. Qed.
Lemma qrel_eq {A} (x : res A) : qrel eq x x.
Proof. destruct x; cbn; auto. Qed.
Lemma qrel_eq_inv {A} (x y : res A) : qrel eq x y -> x = y.
Proof. destruct x, y; cbn; intros; subst; auto; tauto. Qed.

Lemma mrel_bind {A B C D} p (R : links -> A -> B -> Prop) (S : links -> C -> D -> Prop) x y f g :
  mrel p R x y -> (forall q a b, incl p q -> R q a b -> mrel q S (f a) (g b)) ->
  mrel p S (bind x f) (bind y g).
Proof.
  intros H K q h h' I Hh. specialize (H q h h' I Hh). unfold bind.
  destruct (x h) as [[a k]| | |], (y h') as [[b k']| | |]; cbn in H; try tauto; cbn; auto.
  destruct H as (q1 & G & Ra).
  assert (I1 : incl p q1) by (eapply incl_tran; [exact I | apply (gr_incl _ _ _ _ _ _ G)]).
  specialize (K q1 a b I1 Ra q1 k k' (incl_refl _) (gr_rel _ _ _ _ _ _ G)).
  eapply qrel_imp; [|exact K]. intros [c l] [d l'] (q2 & G2 & Rc). cbn in *.
  exists q2. split; auto. eapply grows_trans; eauto.
Qed.
Lemma mrel_ret {A B} p (R : links -> A -> B -> Prop) a b :
  (forall q, incl p q -> R q a b) -> mrel p R (ret a) (ret b).
Proof. intros H q h h' I Hh. cbn. exists q. split; [now apply grows_refl | auto]. Qed.
Lemma mrel_lift {A B} p (R : links -> A -> B -> Prop) f g :
  (forall q h h', incl p q -> hrel q h h' -> qrel (R q) (f h) (g h')) -> mrel p R (mlift f) (mlift g).
Proof.
  intros H q h h' I Hh. unfold mlift. specialize (H q h h' I Hh).
  destruct (f h), (g h'); cbn in *; auto. exists q. split; [now apply grows_refl | auto].
Qed.
Lemma mrel_panic {A B} p (R : links -> A -> B -> Prop) : mrel p R mpanic mpanic.
Proof. intros q h h' _ _. exact Logic.I. Qed.
Lemma mrel_stuck {A B} p (R : links -> A -> B -> Prop) : mrel p R mstuck mstuck.
Proof. intros q h h' _ _. exact Logic.I. Qed.
Lemma mrel_imp {A B} p (R S : links -> A -> B -> Prop) x y :
  (forall q a b, incl p q -> R q a b -> S q a b) -> mrel p R x y -> mrel p S x y.
Proof.
  intros H K q h h' I Hh. eapply qrel_imp; [|exact (K q h h' I Hh)].
  intros [a k] [b k'] (q' & G & Ra). exists q'. split; auto. apply H; auto.
  eapply incl_tran; [exact I | apply (gr_incl _ _ _ _ _ _ G)].
Qed.
Lemma mrel_incl {A B} p q (R : links -> A -> B -> Prop) x y : incl p q -> mrel p R x y -> mrel q R x y.
Proof. intros I K r h h' J Hh. apply K; auto. eapply incl_tran; eauto. Qed.

(** ** Monotonicity *)

Lemma same_handle_incl p q o o' : incl p q -> same_handle p o o' -> same_handle q o o'.
Proof. intros I. destruct o, o'; cbn; auto. Qed.
Lemma same_held_incl p q i j : incl p q -> same_held p i j -> same_held q i j.
Proof. intros I H. inversion H; subst; constructor; auto. Qed.
Lemma entry_rel_incl p q o o' : incl p q -> entry_rel p o o' -> entry_rel q o o'.
Proof. intros I. destruct o, o'; cbn; auto. now apply same_handle_incl. Qed.
Lemma handles_incl p q l l' : incl p q -> Forall2 (same_handle p) l l' -> Forall2 (same_handle q) l l'.
Proof. intros I. induction 1; constructor; auto. eapply same_handle_incl; eauto. Qed.
Lemma mobj_rel_incl p q m m' : incl p q -> mobj_rel p m m' -> mobj_rel q m m'.
Proof. intros I (A & B & C). repeat split; auto. intros k. eapply entry_rel_incl; eauto. Qed.
Lemma cell_rel_incl p q c c' : incl p q -> cell_rel p c c' -> cell_rel q c c'.
Proof.
  intros I. destruct c, c'; cbn; auto.
  - now apply same_held_incl.
  - now apply mobj_rel_incl.
  - now apply handles_incl.
Qed.
Lemma grel_imp {A B} (R S : A -> B -> Prop) x y : (forall a b, R a b -> S a b) -> grel R x y -> grel S x y.
Proof. destruct x, y; cbn; auto. Qed.

(** ** Access *)

Section Access.
  Context (p : links) (h h' : heap) (H : hrel p h h').

  Lemma linked_lt a b : In (a, b) p -> a < length h /\ b < length h'.
  Proof. intros I. destruct (proj2 H _ _ I) as (c & c' & A & B & _). split; eapply nth_error_lt; eauto. Qed.
  Lemma rd_ptr_rel a b : In (a, b) p -> qrel eq (rd_ptr h a) (rd_ptr h' b).
  Proof.
    intros I. destruct (proj2 H _ _ I) as (c & c' & A & B & R). unfold rd_ptr. rewrite A, B.
    destruct c, c'; cbn in *; auto; tauto.
  Qed.
  Lemma rd_val_rel a b : In (a, b) p -> qrel (same_held p) (rd_val h a) (rd_val h' b).
  Proof.
    intros I. destruct (proj2 H _ _ I) as (c & c' & A & B & R). unfold rd_val. rewrite A, B.
    destruct c, c'; cbn in *; auto; tauto.
  Qed.
  Lemma rd_map_rel a b : In (a, b) p -> qrel (mobj_rel p) (rd_map h a) (rd_map h' b).
  Proof.
    intros I. destruct (proj2 H _ _ I) as (c & c' & A & B & R). unfold rd_map. rewrite A, B.
    destruct c, c'; cbn in *; auto; tauto.
  Qed.
  Lemma rd_arr_rel a b : In (a, b) p -> qrel (Forall2 (same_handle p)) (rd_arr h a) (rd_arr h' b).
  Proof.
    intros I. destruct (proj2 H _ _ I) as (c & c' & A & B & R). unfold rd_arr. rewrite A, B.
    destruct c, c'; cbn in *; auto; tauto.
  Qed.
End Access.

Definition linked (p : links) (a b : nat) : Prop := In (a, b) p.

Lemma alloc_rel p c c' : cell_rel p c c' -> mrel p linked (alloc c) (alloc c').
Proof.
  intros R q h h' I Hh. cbn. exists ((length h, length h') :: q).
  assert (J : incl q ((length h, length h') :: q)) by (intros x; cbn; auto).
  assert (L : forall a b, In (a, b) q -> a < length h /\ b < length h') by (apply linked_lt; auto).
  split; [|cbn; unfold linked; auto]. split; auto.
  - split.
    + intros a b a' b' [E|K] [E'|K']; try (inversion E; subst); try (inversion E'; subst).
      * tauto.
      * specialize (L _ _ K'). lia.
      * specialize (L _ _ K). lia.
      * apply (proj1 Hh); auto.
    + intros a b [E|K].
      * inversion E; subst. exists c, c'. rewrite !nth_error_alloc_new. repeat split.
        eapply cell_rel_incl; [|exact R]. eapply incl_tran; eauto.
      * destruct (proj2 Hh _ _ K) as (x & x' & A & B & C). exists x, x'.
        repeat split; [now apply nth_error_alloc_old | now apply nth_error_alloc_old | eapply cell_rel_incl; eauto].
  - intros a b [E|K]; auto. inversion E; subst. right. lia.
  - rewrite app_length. cbn. lia.
  - rewrite app_length. cbn. lia.
  - intros a La _. rewrite nth_error_alloc. apply Nat.ltb_lt in La. now rewrite La.
Qed.

Lemma wr_rel p a b c c' : In (a, b) p -> cell_rel p c c' -> mrel p req (wr a c) (wr b c').
Proof.
  intros K R q h h' I Hh. unfold wr. destruct (linked_lt _ _ _ Hh a b (I _ K)) as [La Lb].
  apply Nat.ltb_lt in La as La'. apply Nat.ltb_lt in Lb as Lb'. rewrite La', Lb'. cbn.
  exists q. split; [|reflexivity]. split; auto.
  - apply incl_refl.
  - split; [apply Hh|]. intros x y Hxy.
    destruct (proj2 Hh _ _ Hxy) as (d & d' & A & B & C).
    rewrite !nth_error_upd by auto. pose proof (proj1 Hh _ _ _ _ Hxy (I _ K)) as E.
    destruct (Nat.eqb_spec a x) as [->|N].
    + assert (y = b) by (apply E; reflexivity). subst y. rewrite Nat.eqb_refl. exists c, c'.
      repeat split. eapply cell_rel_incl; eauto.
    + destruct (Nat.eqb_spec b y) as [->|N']; [exfalso; apply N; symmetry; now apply E|].
      exists d, d'. auto.
  - rewrite upd_length. lia.
  - rewrite upd_length. lia.
  - intros x Lx N. rewrite nth_error_upd by auto. destruct (Nat.eqb_spec a x) as [->|]; auto.
    exfalso. exact (N _ (I _ K)).
Qed.

(** ** Values *)

Lemma held_nil p i j : same_held p i j -> common_IsNil i = common_IsNil j.
Proof. destruct 1; reflexivity. Qed.
Lemma held_type p i j : same_held p i j -> static_type i = static_type j.
Proof. destruct 1; reflexivity. Qed.
Lemma held_gtype p i j X : same_held p i j -> common_GetType X i = common_GetType X j.
Proof. intros H. unfold common_GetType. now rewrite (held_nil _ _ _ H), (held_type _ _ _ H). Qed.
Lemma held_isnil p i j X : same_held p i j -> iface_IsNil X i = iface_IsNil X j.
Proof. intros H. unfold iface_IsNil. now rewrite (held_nil _ _ _ H), (held_gtype _ _ _ X H). Qed.

Section Values.
  Context (X : ext) (p : links) (h h' : heap) (H : hrel p h h').
  Let rd_val_r := rd_val_rel p h h' H.
  Let rd_ptr_r := rd_ptr_rel p h h' H.

  Lemma deref_rel i j : same_held p i j -> qrel eq (deref h i) (deref h' j).
  Proof.
    destruct 1 as [i N| | | | | | |]; cbn; auto.
    - destruct i as [| |? [?|]| | | | | | | | | | | | | | | | |]; cbn in *; auto; discriminate.
    - eapply qrel_bind; [apply rd_ptr_r; eauto|]. intros s s' ->. apply qrel_eq.
  Qed.

  Ltac start := eapply qrel_bind; [apply rd_val_r; eassumption|];
    let i := fresh "i" in let j := fresh "j" in let R := fresh "R" in intros i j R;
    try rewrite (held_isnil _ _ _ X R); try rewrite (held_gtype _ _ _ X R); try rewrite (held_nil _ _ _ R);
    try match goal with |- context [iface_IsNil X j] => destruct (iface_IsNil X j) eqn:? end; cbn [qrel grel same_handle]; auto.

  Lemma value_is_rel f v w : In (v, w) p -> qrel eq (value_is f X h v) (value_is f X h' w).
  Proof. intros L. unfold value_is. start. Qed.
  Lemma value_GetType_rel v w : In (v, w) p -> qrel eq (value_GetType X h v) (value_GetType X h' w).
  Proof. intros L. unfold value_GetType. start. Qed.
  Lemma value_IsNil_rel v w : In (v, w) p -> qrel eq (value_IsNil X h v) (value_IsNil X h' w).
  Proof. intros L. unfold value_IsNil. start. Qed.
  Lemma value_GetObject_rel v w : In (v, w) p -> qrel (same_held p) (value_GetObject h v) (value_GetObject h' w).
  Proof. intros L. now apply rd_val_r. Qed.
  Lemma value_IsBoolVal_rel b v w : In (v, w) p -> qrel eq (value_IsBoolVal b X h v) (value_IsBoolVal b X h' w).
  Proof.
    intros L. unfold value_IsBoolVal. start. destruct (common_IsNil j); cbn; auto.
    eapply qrel_bind; [apply deref_rel; eauto|]. intros s s' ->. apply qrel_eq.
  Qed.

  Lemma value_GetMap_rel v w : In (v, w) p ->
    qrel (grel (same_handle p)) (value_GetMap X h v) (value_GetMap X h' w).
  Proof.
    intros L. unfold value_GetMap. start. destruct R as [i N| | | | | | |]; cbn; auto.
    destruct i as [| |? [?|]|?|[?|]| | | | | | | | | | | | | | |]; cbn in *; auto; discriminate.
  Qed.
  Lemma value_GetMapValue_rel v w : In (v, w) p ->
    qrel (grel (linked p)) (value_GetMapValue X h v) (value_GetMapValue X h' w).
  Proof.
    intros L. unfold value_GetMapValue. start. destruct R as [i N| | | | | | |]; cbn; auto.
    destruct i as [| |? [?|]|?|[?|]| | | | | | | | | | | | | | |]; cbn in *; auto; discriminate.
  Qed.
  Lemma value_GetArray_rel v w : In (v, w) p ->
    qrel (grel (same_handle p)) (value_GetArray X h v) (value_GetArray X h' w).
  Proof.
    intros L. unfold value_GetArray. start. destruct R as [i N| | | | | | |]; cbn; auto.
    destruct i as [| |? [?|]|?|[?|]|?|[?|]| | | | | | | | | | | | |]; cbn in *; auto; discriminate.
  Qed.
  Lemma value_GetArrayValue_rel v w : In (v, w) p ->
    qrel (grel (linked p)) (value_GetArrayValue X h v) (value_GetArrayValue X h' w).
  Proof.
    intros L. unfold value_GetArrayValue. eapply qrel_bind; [apply value_GetArray_rel; eauto|].
    intros [[a|]|e] [[b|]|e'] R; cbn in R; try tauto; subst; cbn; auto;
      (eapply qrel_bind; [apply value_IsNil_rel; eauto|]); intros ? ? ->; destruct b0 || destruct b; cbn; auto.
  Qed.

  Lemma value_GetFloat64_rel v w : In (v, w) p -> qrel eq (value_GetFloat64 X h v) (value_GetFloat64 X h' w).
  Proof.
    intros L. unfold value_GetFloat64. start.
    eapply qrel_bind; [apply deref_rel; eauto|]. intros s s' ->. apply qrel_eq.
  Qed.
  Lemma value_GetBoolValue_rel v w : In (v, w) p -> qrel eq (value_GetBoolValue X h v) (value_GetBoolValue X h' w).
  Proof.
    intros L. unfold value_GetBoolValue. start.
    eapply qrel_bind; [apply deref_rel; eauto|]. intros s s' ->. apply qrel_eq.
  Qed.
  Lemma value_GetUInt64_rel v w : In (v, w) p -> qrel eq (value_GetUInt64 X h v) (value_GetUInt64 X h' w).
  Proof.
    intros L. unfold value_GetUInt64. start.
    eapply qrel_bind; [apply deref_rel; eauto|]. intros s s' ->. apply qrel_eq.
  Qed.
  Lemma value_GetFloat64Value_rel v w : In (v, w) p -> qrel eq (value_GetFloat64Value X h v) (value_GetFloat64Value X h' w).
  Proof.
    intros L. unfold value_GetFloat64Value. eapply qrel_bind; [apply value_GetFloat64_rel; eauto|]. intros s s' ->. apply qrel_eq.
  Qed.
  Lemma value_GetFloat32_rel v w : In (v, w) p -> qrel eq (value_GetFloat32 X h v) (value_GetFloat32 X h' w).
  Proof.
    intros L. unfold value_GetFloat32. eapply qrel_bind; [apply value_GetFloat64_rel; eauto|]. intros s s' ->. apply qrel_eq.
  Qed.
  Lemma value_GetFloat32Value_rel v w : In (v, w) p -> qrel eq (value_GetFloat32Value X h v) (value_GetFloat32Value X h' w).
  Proof.
    intros L. unfold value_GetFloat32Value. eapply qrel_bind; [apply value_GetFloat64_rel; eauto|]. intros s s' ->. apply qrel_eq.
  Qed.

  Lemma value_time_rel rd v w : In (v, w) p -> qrel eq (value_time rd X h v) (value_time rd X h' w).
  Proof.
    intros L. unfold value_time. start.
    assert (E : qrel eq (time_arg_of h i) (time_arg_of h' j)).
    { unfold time_arg_of. rewrite (held_type _ _ _ R).
      replace (time_of i) with (time_of j) by (destruct R; reflexivity).
      eapply qrel_bind with (R := eq).
      - pose proof (deref_rel _ _ R) as D. destruct R as [i N| | | | | | |]; try exact D.
        destruct i as [| |? [?|]| | | | | | | | | | | | | | | | |]; cbn in *; auto; discriminate.
      - intros s s' ->. apply qrel_eq. }
    eapply qrel_bind; [exact E|]. intros a a' ->. apply qrel_eq.
  Qed.
  Lemma value_GetTimeValue_rel L0 v w : In (v, w) p -> qrel eq (value_GetTimeValue L0 h v) (value_GetTimeValue L0 h' w).
  Proof.
    intros L. unfold value_GetTimeValue. start.
    assert (E : qrel eq (time_arg_of h i) (time_arg_of h' j)).
    { unfold time_arg_of. rewrite (held_type _ _ _ R).
      replace (time_of i) with (time_of j) by (destruct R; reflexivity).
      eapply qrel_bind with (R := eq).
      - pose proof (deref_rel _ _ R) as D. destruct R as [i N| | | | | | |]; try exact D.
        destruct i as [| |? [?|]| | | | | | | | | | | | | | | | |]; cbn in *; auto; discriminate.
      - intros s s' ->. apply qrel_eq. }
    eapply qrel_bind; [exact E|]. intros a a' ->. apply qrel_eq.
  Qed.
End Values.
