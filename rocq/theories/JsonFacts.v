(** * The output and the grammar of RFC 8259 *)
From Coq Require Import Ascii String List NArith ZArith Bool Lia.
From Verif Require Import GoStr GoNum GoFloat Heap StrLemmas SpecUtf8 SpecJson SpecNum SpecFloat SpecDoc SpecToken SpecRender
  RenderFacts ShowFacts TokenFacts.
Import ListNotations.

Scheme json_value_mut := Induction for json_value Sort Prop
with json_elements_mut := Induction for json_elements Sort Prop
with json_members_mut := Induction for json_members Sort Prop.
Combined Scheme json_mutind from json_value_mut, json_elements_mut, json_members_mut.

(** ** Valid output *)
Lemma utf8_ascii c : (c < 128)%N -> utf8 c = [ascii_of_N c].
Proof. intros H. unfold utf8. destruct (N.ltb_spec c 128); [reflexivity|lia]. Qed.
Lemma utf8_high c : scalar_value c -> (128 <= c)%N -> Forall (fun a => (128 <= N_of_ascii a)%N) (utf8 c).
Proof.
  intros S H. unfold utf8. assert (c < 1114112)%N as B by (destruct S; lia).
  assert (X : forall n, (128 <= n < 256)%N -> (128 <= N_of_ascii (ascii_of_N n))%N).
  { intros n Hn. rewrite N_ascii_embedding; lia. }
  assert (Mo : forall n, (128 <= 128 + n mod 64 < 256)%N). { intros n. assert (n mod 64 < 64)%N by (apply N.mod_lt; discriminate). revert H0. generalize (n mod 64)%N. intros; lia. }
  destruct (N.ltb_spec c 128); [lia|]. destruct (N.ltb_spec c 2048); [|destruct (N.ltb_spec c 65536)]; cbn [map];
    repeat (apply Forall_cons; [apply X; try apply Mo|]); try apply Forall_nil.
  - assert (G : (c / 64 < 32)%N) by (apply N.div_lt_upper_bound; lia). revert G. generalize (c / 64)%N. intros; lia.
  - assert (G : (c / 4096 < 16)%N) by (apply N.div_lt_upper_bound; lia). revert G. generalize (c / 4096)%N. intros; lia.
  - assert (G : (c / 262144 < 5)%N) by (apply N.div_lt_upper_bound; lia). revert G. generalize (c / 262144)%N. intros; lia.
Qed.

Lemma clean_quote s : clean s -> json_string (quote s).
Proof.
  intros (l & -> & F).
  exists (map (fun c => if (c =? 34)%N then [c_bs; c_dq] else utf8 c) l). split.
  - unfold quote. change (lit """") with [c_dq]. f_equal. f_equal.
    induction F as [|c l (S & G & B) _ IH]; [reflexivity|]. cbn [map concat]. rewrite flat_map_app, IH. f_equal. clear IH.
    destruct (N.eqb_spec c 34) as [-> |N]; [reflexivity|].
    destruct (N.ltb_spec c 128) as [L|L].
    + rewrite utf8_ascii by auto. cbn. destruct (Ascii.eqb_spec (ascii_of_N c) c_dq) as [E|]; [|reflexivity].
      exfalso. apply N. rewrite <- (N_ascii_embedding c) by lia. rewrite E. reflexivity.
    + pose proof (utf8_high c S L) as H. induction H as [|a u Ha _ IH]; [reflexivity|]. cbn [flat_map]. rewrite IH.
      destruct (Ascii.eqb_spec a c_dq) as [->|]; [cbn in Ha; lia|reflexivity].
  - apply Forall_map. eapply Forall_impl; [|exact F]. intros c (S & G & B).
    destruct (N.eqb_spec c 34) as [->|N].
    + right. left. exists c_dq. split; [reflexivity|]. left. reflexivity.
    + left. exists c. auto.
Qed.

Lemma canonical_int i : canonical i -> Forall is_digit i -> json_int i.
Proof.
  intros [->|C] D; [left; reflexivity|]. destruct i as [|c t]; [destruct C|]. inversion D; subst.
  right. exists c, t. auto.
Qed.
Lemma number_of_int z s : integer_text z s -> json_number s.
Proof.
  intros (u & -> & (N & D & _) & C). exists (sign (z <? 0)%Z), u, [], []. rewrite !app_nil_r. split; auto.
  split; [destruct (z <? 0)%Z; auto|]. split; [now apply canonical_int|split; left; auto].
Qed.
Lemma number_of_fixed neg m e s : fixed_text neg m e s -> json_number s.
Proof.
  intros (i & f & z & -> & (N & D & _) & C & L & _). apply Forall_app in D as [Di Df].
  exists (sign neg), i, ("."%char :: f), []. rewrite !app_nil_r. split; [reflexivity|].
  split; [destruct neg; auto|]. split; [now apply canonical_int|split; [|left; auto]].
  right. exists f. repeat split; auto. intros ->. discriminate.
Qed.

Lemma ws_nil : ws [].
Proof. constructor. Qed.
Lemma commas_elements ts : ts <> [] -> Forall json_value ts -> json_elements (commas ts).
Proof.
  intros N F. induction F as [|t ts H F IH]; [destruct (N eq_refl)|].
  rewrite commas_cons. destruct ts as [|u ts].
  - pose proof (je_last [] t [] ws_nil H ws_nil) as K. cbn [app] in K. exact K.
  - assert (u :: ts <> []) as N' by discriminate. specialize (IH N').
    pose proof (je_more [] t [] _ ws_nil H ws_nil IH) as K. cbn [app] in K. exact K.
Qed.
Lemma array_value ts : Forall json_value ts -> json_value ([c_ls] ++ commas ts ++ [c_rs]).
Proof.
  intros F. destruct ts as [|t ts].
  - exact (jv_array0 [] ws_nil).
  - apply jv_array. now apply commas_elements.
Qed.
Lemma commas_members l : l <> [] -> Forall (fun kt => clean (fst kt) /\ json_value (snd kt)) l ->
  json_members (commas (map (fun kt => quote (fst kt) ++ [c_col] ++ snd kt) l)).
Proof.
  intros N F. induction F as [|[k t] l [Hk H] F IH]; [destruct (N eq_refl)|]. cbn [fst snd] in *. apply clean_quote in Hk.
  cbn [map]. rewrite commas_cons. destruct l as [|u l]; cbn [map fst snd] in *.
  - pose proof (jm_last [] _ [] [] t [] ws_nil Hk ws_nil ws_nil H ws_nil) as K. rewrite app_nil_r in K. cbn [commas]. rewrite !app_nil_r. exact K.
  - assert (u :: l <> []) as N' by discriminate. specialize (IH N').
    pose proof (jm_more [] _ [] [] t [] _ ws_nil Hk ws_nil ws_nil H ws_nil IH) as K.
    cbn [app lit list_ascii_of_string] in K. rewrite <- app_assoc. exact K.
Qed.
Lemma object_value l : Forall (fun kt => clean (fst kt) /\ json_value (snd kt)) l ->
  json_value ([c_lb] ++ commas (map (fun kt => quote (fst kt) ++ [c_col] ++ snd kt) l) ++ [c_rb]).
Proof.
  intros F. destruct l as [|x l].
  - exact (jv_object0 [] ws_nil).
  - apply jv_object. now apply commas_members.
Qed.

Lemma valid_output d : forall s, valid d -> shows d s -> json_value s.
Proof.
  induction d as [|s|y|l|l IH|l IH] using doc_ind'; intros t V S.
  - inversion S. apply jv_null.
  - inversion S; subst.
    + apply jv_true.
    + apply jv_false.
    + apply jv_number. eapply number_of_int; eauto.
    + apply jv_number. eapply number_of_fixed; eauto.
    + inversion V.
    + inversion V.
    + inversion V.
    + inversion V; subst. apply jv_string. now apply clean_quote.
  - inversion S; subst. inversion V; subst. apply jv_string. now apply clean_quote.
  - inversion S; subst. inversion V; subst. apply array_value. apply Forall_map. eapply Forall_impl; [|eassumption].
    intros. apply jv_string. now apply clean_quote.
  - inversion S as [| | | | | | | | | | |? ts S'|]; subst. inversion V as [| | | | | | |? V'|]; subst. apply array_value.
    clear - IH S' V'. induction S'; inversion IH; inversion V'; subst; constructor; auto.
  - inversion S as [| | | | | | | | | | | |? ts S']; subst. inversion V as [| | | | | | | |? V']; subst. apply object_value.
    clear - IH S' V'. induction S'; inversion IH; inversion V'; subst; cbn [map combine]; constructor; auto.
    cbn [fst snd]. match goal with H : _ /\ _ |- _ => destruct H end. auto.
Qed.

(** ** Recognising texts that are not valid *)
Inductive scan_state := SOut | SIn | SEsc.
Definition scan_step (q : scan_state) (c : ascii) : option scan_state :=
  match q with
  | SOut => if Ascii.eqb c c_dq then Some SIn
            else if existsb (Ascii.eqb c) (lit "{}[],:0123456789+-.eEtrufalsn ") || existsb (N.eqb (N_of_ascii c)) [9; 10; 13]%N
            then Some SOut else None
  | SIn => if Ascii.eqb c c_dq then Some SOut else if Ascii.eqb c c_bs then Some SEsc
           else if (N_of_ascii c <? 32)%N then None else Some SIn
  | SEsc => if existsb (Ascii.eqb c) (lit """\/bfnrtu") then Some SIn else None
  end.
Fixpoint scan (q : scan_state) (s : str) : option scan_state :=
  match s with
  | [] => Some q
  | c :: t => match scan_step q c with Some q' => scan q' t | None => None end
  end.
Lemma scan_app q s t : scan q (s ++ t) = match scan q s with Some q' => scan q' t | None => None end.
Proof. revert q. induction s as [|c s IH]; intros q; cbn; auto. destruct (scan_step q c); auto. Qed.
Lemma scan_outs s : Forall (fun c => scan_step SOut c = Some SOut) s -> scan SOut s = Some SOut.
Proof. induction 1 as [|c s H _ IH]; cbn [scan]; auto. now rewrite H. Qed.
Lemma scan_digits s : Forall is_digit s -> scan SOut s = Some SOut.
Proof.
  intros F. apply scan_outs. eapply Forall_impl; [|exact F]. intros c D.
  assert (In c (lit "0123456789")) as I by now apply digit_list. cbn in I.
  repeat (destruct I as [<-|I]; [reflexivity|]). destruct I.
Qed.
Lemma scan_ws s : ws s -> scan SOut s = Some SOut.
Proof.
  intros F. apply scan_outs. eapply Forall_impl; [|exact F]. intros c I.
  assert (c = ascii_of_N (N_of_ascii c)) as E by now rewrite ascii_N_embedding. rewrite E. clear E.
  cbn in I. repeat (destruct I as [<-|I]; [reflexivity|]). destruct I.
Qed.
Lemma scan_seq q s t r : scan q s = Some q -> scan q t = r -> scan q (s ++ t) = r.
Proof. intros H T. now rewrite scan_app, H. Qed.
Lemma scan_number s : json_number s -> scan SOut s = Some SOut.
Proof.
  intros (m & i & f & e & -> & M & I & F & E). repeat apply scan_seq.
  - destruct M as [-> | ->]; reflexivity.
  - destruct I as [->|(c & t & -> & D & _ & Dt)]; [reflexivity|]. apply scan_digits. now constructor.
  - destruct F as [->|(t & -> & _ & Dt)]; [reflexivity|]. apply (scan_seq SOut (lit ".")); [reflexivity|]. now apply scan_digits.
  - destruct E as [->|(c & p & t & -> & C & P & _ & Dt)]; [reflexivity|].
    apply (scan_seq SOut [c]); [destruct C as [-> | ->]; reflexivity|]. apply scan_seq; [|now apply scan_digits].
    destruct P as [->|[-> | ->]]; reflexivity.
Qed.
Lemma scan_ins s : Forall (fun c => scan_step SIn c = Some SIn) s -> scan SIn s = Some SIn.
Proof. induction 1 as [|c s H _ IH]; cbn [scan]; auto. now rewrite H. Qed.
Lemma scan_char s : json_char s -> scan SIn s = Some SIn.
Proof.
  intros [(c & -> & S & G & Q & B)|[(c & -> & I)|(h & -> & _ & H)]].
  - apply scan_ins. destruct (N.ltb_spec c 128) as [L|L].
    + rewrite utf8_ascii by auto. constructor; [|constructor]. cbn.
      assert (N_of_ascii (ascii_of_N c) = c) as E by (apply N_ascii_embedding; lia). rewrite E.
      destruct (Ascii.eqb_spec (ascii_of_N c) c_dq) as [D|_]; [rewrite D in E; cbn in E; lia|].
      destruct (Ascii.eqb_spec (ascii_of_N c) c_bs) as [D|_]; [rewrite D in E; cbn in E; lia|].
      destruct (N.ltb_spec c 32); [lia|reflexivity].
    + eapply Forall_impl; [|apply utf8_high; eauto]. intros a Ha. cbv beta in Ha. cbn [scan_step].
      destruct (Ascii.eqb_spec a c_dq) as [->|_]; [cbn in Ha; lia|].
      destruct (Ascii.eqb_spec a c_bs) as [->|_]; [cbn in Ha; lia|].
      destruct (N.ltb_spec (N_of_ascii a) 32); [lia|reflexivity].
  - cbn in I. repeat (destruct I as [<-|I]; [reflexivity|]). destruct I.
  - rewrite scan_app. change (scan SIn [ascii_of_N 92; "u"%char]) with (Some SIn). cbn. apply scan_ins.
    eapply Forall_impl; [|exact H]. intros c I. unfold hexdig in I. cbn in I.
    repeat (destruct I as [<-|I]; [reflexivity|]). destruct I.
Qed.
Lemma scan_string s : json_string s -> scan SOut s = Some SOut.
Proof.
  intros (l & -> & F). rewrite scan_app. change (scan SOut (lit """")) with (Some SIn). cbv iota beta.
  apply scan_seq with (r := Some SOut); [|reflexivity].
  induction F as [|c l H _ IH]; [reflexivity|]. cbn [concat]. apply scan_seq; auto. now apply scan_char.
Qed.
Lemma scan_json :
  (forall s, json_value s -> scan SOut s = Some SOut)
  /\ (forall s, json_elements s -> scan SOut s = Some SOut)
  /\ (forall s, json_members s -> scan SOut s = Some SOut).
Proof.
  apply json_mutind; intros; try reflexivity; auto using scan_number, scan_string;
    repeat apply scan_seq; auto using scan_ws, scan_string; reflexivity.
Qed.
Lemma scan_text s : json_text s -> scan SOut s = Some SOut.
Proof.
  intros (a & v & b & -> & A & V & B). repeat apply scan_seq; auto using scan_ws. exact (proj1 scan_json v V).
Qed.
