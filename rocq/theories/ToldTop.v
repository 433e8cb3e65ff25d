(** * The theorems about the texts of the errors of ToJSONString, of the conversions and of
      Clone *)
From Coq Require Import Ascii String List NArith ZArith Bool Lia.
From Verif Require Import GoStr StrLemmas GoNum NumLemmas GoFloat Heap Common ValueModel ArrayModel MapModel JsonModel GetterModel
  SpecDict DictLemmas SpecWorld Inv World Reach SpecNum SpecFloat SpecDoc RepFacts SpecRender RenderFacts
  SpecClone SpecHistory CloneFacts CloneTop CloneResults SpecWrite WriteFacts SpecConvert ConvertFacts SaysModel SpecSays ToldModel SpecTold ToldFacts ToldClone.
Import ListNotations.
Local Open Scope nat_scope.

Section Top.
  Context (E : str -> str) (X : ext).

  Definition written_says (fuel : nat) (h : heap) (kd : ckind) (l : loc) : res (list str) :=
    match kd with
    | KMap => map_ToJSONString_says E X fuel h l true
    | KArr => arr_ToJSONString_says E X fuel h l true
    | KVal => convert_json_says E X fuel h (IPVal (Some l)) true
    end.

  Lemma written_out h F kd l k : reachable X h -> escape_ok X -> content_at h F kd l k ->
    exists n, forall fuel, n <= fuel -> written_says fuel h kd l = outl (bad X k) (complaints X k).
  Proof.
    intros R Es H. pose proof (view_impl _ (reachable_Inv _ _ R)) as I. destruct (conv_out E X h (view h) F Es I) as (Ho & Hv & _).
    destruct kd; cbn [content_at] in H.
    - destruct (Hv _ _ H) as (n & Q). exists n. intros f L. exact (Q f L).
    - destruct (Ho _ _ H) as (n & Q). exists n. intros f L. exact (Q f L).
    - destruct (Ho _ _ H) as (n & Q). exists n. intros f L. exact (Q f L).
  Qed.
  Lemma content_leafy h F kd l k : content_at h F kd l k -> leafy k.
  Proof. destruct (holds_leafy (view h) F) as (Lo & Lv & _). destruct kd; cbn [content_at]; eauto. Qed.
  Lemma bad_panics k : leafy k -> bad X k = true <-> panics X k.
  Proof. intros Lf. rewrite <- (dump_panics X k Lf). unfold bad. destruct (dump X k); split; congruence. Qed.

  Lemma written h F kd l k : reachable X h -> escape_ok X -> content_at h F kd l k -> proper_content X k -> ~ panics X k ->
    exists ms n, complains X k ms /\ forall fuel, n <= fuel -> written_says fuel h kd l = Ok ms.
  Proof.
    intros R Es H P N. pose proof (content_leafy _ _ _ _ _ H) as Lf. destruct (written_out h F kd l k R Es H) as (n & Q).
    assert (B : bad X k = false). { destruct (bad X k) eqn:B; auto. apply bad_panics in B; auto. contradiction. }
    exists (complaints X k), n. split; [now apply complaints_spec|]. intros f L. rewrite (Q f L), B. reflexivity.
  Qed.
  Lemma written_panics h F kd l k : reachable X h -> escape_ok X -> content_at h F kd l k -> panics X k ->
    exists n, forall fuel, n <= fuel -> written_says fuel h kd l = Panic.
  Proof.
    intros R Es H N. pose proof (content_leafy _ _ _ _ _ H) as Lf. destruct (written_out h F kd l k R Es H) as (n & Q).
    exists n. intros f L. rewrite (Q f L). apply bad_panics in N; auto. now rewrite N.
  Qed.

  (** A key that is rejected ends the text of its map. *)
  Lemma rejected_key fuel h m d1 k o d2 mss : reachable X h ->
    w_map (view h) m = Some (d1 ++ (k, o) :: d2) ->
    Forall (fun ko => x_escape X (fst ko) <> None) d1 -> x_escape X k = None ->
    Forall2 (fun ko ms => convert_json_says E X fuel h (IPVal (snd ko)) true = Ok ms) d1 mss ->
    map_ToJSONString_says E X fuel h m true = Ok (concat mss ++ [E k]).
  Proof.
    intros R Hm A B C. pose proof (view_impl _ (reachable_Inv _ _ R)) as I. apply (im_map _ _ I) in Hm as (mo & H & EK & _ & N & G).
    apply rd_map_iff in H. cbn [map_ToJSONString_says]. unfold map_json_says. rewrite H. cbn [rbind]. rewrite EK.
    assert (Q : forall k' o', In (k', o') d1 -> tbl_get (m_tbl mo) k' = Some o').
    { intros k' o' Ho. rewrite G. apply dict_In_get; auto. apply in_or_app. now left. }
    clear - A B C Q. unfold dict_keys. rewrite map_app. cbn [map fst].
    induction C as [|[k' o'] ms d1 mss Hc _ IH]; cbn [map app fst members_say concat]; [now rewrite B|].
    inversion A as [|? ? A1 A2]; subst. cbn [fst snd] in *. destruct (x_escape X k'); [|congruence].
    rewrite (Q k' o') by now left. unfold convert_json_says in Hc. rewrite Hc. cbn [rbind].
    rewrite IH; auto; [|intros ? ? ?; apply Q; now right]. cbn [rbind]. now rewrite app_assoc.
  Qed.

  (** As many messages as errors. *)
  Lemma written_count fuel h m a b :
    rmap (@length str) (map_ToJSONString_says E X fuel h m match b with Some _ => true | None => false end)
      = rmap (fun r => length (snd r)) (map_ToJSONString fuel X h m b)
    /\ rmap (@length str) (arr_ToJSONString_says E X fuel h a match b with Some _ => true | None => false end)
      = rmap (fun r => length (snd r)) (arr_ToJSONString fuel X h a b).
  Proof.
    destruct b as [t|]; [|split; reflexivity]. unfold map_ToJSONString_says, arr_ToJSONString_says, map_ToJSONString, arr_ToJSONString.
    rewrite (map_count E X h (conv_json fuel X h) _ m (conv_count E X h fuel)), (arr_count h (conv_json fuel X h) _ a (conv_count E X h fuel)).
    split; [destruct (map_json _ X h m) as [[u e]| | |]|destruct (arr_json _ h a) as [[u e]| | |]]; reflexivity.
  Qed.

  (** ** The conversion to a string *)
  Lemma converted h i : reachable X h -> ok_object (view h) i ->
    (forall o s, looked_at (view h) i = Some o -> scalar_of (view h) o = Some s -> proper_scalar (x_is64 X) s) ->
    exists o r, looked_at (view h) i = Some o /\ says X (view h) i r
      /\ convert_string_says X h i = match r with
                                     | Says _ => Ok []
                                     | NoText => Ok [unsupported_type (lit "JSON.ConvertInterfaceValueToStringValue") (go_type X o)]
                                     | Crash => Panic
                                     end.
  Proof.
    intros R O P. destruct (convert X h i R O P) as (r & S & C). pose proof (view_impl _ (reachable_Inv _ _ R)) as I.
    assert (L : exists o, looked_at (view h) i = Some o
      /\ match i with IVal v | IPVal (Some v) => rd_val h v | _ => Ok i end = Ok o).
    { destruct i as [|s|t [p|]|m|[m|]|a|[a|]|v|[v|]|l|l|[l|]|[l|]|e|[e|]|n|b|[b|]|[n|]|n [d|]]; cbn [looked_at]; try (eexists; split; reflexivity);
        destruct O as [j V]; exists j; (split; [exact V|]); apply rd_val_iff; now apply (im_val _ _ I). }
    destruct L as (o & L & Q). exists o, r. split; auto. split; auto. unfold convert_string_says. rewrite Q. cbn [rbind]. rewrite C.
    destruct r; reflexivity.
  Qed.

  (** ** Clone *)
  Lemma cloned h F kd l k : reachable X h -> content_at h F kd l k ->
    exists n, forall fuel, n <= fuel -> clone_says X fuel h kd l = if crashes X k then Panic else Ok (refusals X (lit "Value") k).
  Proof.
    intros R H. pose proof (view_impl _ (reachable_Inv _ _ R)) as I. destruct (clone_out X h (view h) F I) as (Ho & Hv & _).
    destruct kd; cbn [content_at] in H.
    - destruct (Hv _ _ H) as (n & Q). exists n. intros f L. destruct (Q f L) as (_ & _ & V). exact (V l eq_refl).
    - destruct (Ho _ _ H) as (n & Q). exists n. intros f L. destruct (Q f L) as (_ & M & _). apply M. now left.
    - destruct (Ho _ _ H) as (n & Q). exists n. intros f L. destruct (Q f L) as (_ & _ & A). apply A. now left.
  Qed.
  Lemma clone_as_many h F kd l k : reachable X h -> content_at h F kd l k ->
    exists n, forall fuel, n <= fuel ->
      rmap (@length str) (clone_says X fuel h kd l) = rmap (fun q => match fst q with GVal _ => 0 | GErr e => length e end) (clone fuel X kd l h).
  Proof.
    intros R H. destruct (cloned h F kd l k R H) as (n & Q). pose proof H as H'. apply (content_old X) in H'; auto.
    destruct (settled X h kd l k R H') as (m & r & S & T). exists (n + m). intros f L. rewrite (Q f) by lia. rewrite (S f) by lia.
    unfold result in T. destruct (crashes X k); [now subst r|]. destruct T as (h' & _ & _ & T).
    change (Ok (length (refusals X (lit "Value") k)) = rmap (fun q => match fst q with GVal _ => 0 | GErr e => length e end) r). rewrite refusals_rejects. destruct (rejects X k) as [|e es]; [destruct T as (c & -> & _)|subst r]; reflexivity.
  Qed.
End Top.
