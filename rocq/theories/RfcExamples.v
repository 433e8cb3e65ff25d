(** * Texts of RFC 8259 that Parse rejects or misreads (proofs for C67) *)
From Coq Require Import Ascii String List NArith ZArith Bool Lia.
From Verif Require Import GoStr GoNum GoFloat Heap Common ValueModel ArrayModel MapModel JsonModel ParserModel
  StrLemmas SpecDict DictLemmas SpecNum NumLemmas SpecWorld Inv World Reach SpecFloat FloatFacts SpecUtf8 SpecDoc SpecText SpecToken SpecParse
  TreeParser ParseRefine TextRun TokenFacts ParseTop ParseFacts PosFacts TypedFacts TextDec SpecJson JsonFacts SpecRfc RfcFacts ExampleState ExampleText.
Import ListNotations.

(** ** Lengths *)
Lemma utf8_len c : length (utf8 c) <= 4.
Proof. unfold utf8. destruct (c <? 128)%N, (c <? 2048)%N, (c <? 65536)%N; cbn; lia. Qed.
Lemma hex4_len s n : hex4 s n -> length s = 4.
Proof. intros (a & b & c & d & _ & _ & _ & _ & -> & _). reflexivity. Qed.
Lemma hex4_small s n : hex4 s n -> (n < 65536)%N.
Proof. intros (a & b & c & d & na & nb & nc & nd & -> & [A _] & [B _] & [C _] & [D _] & ->). lia. Qed.

(** An escape takes more room than what it stands for. *)
Lemma decodes_len b t : decodes b t -> length t <= length b /\ (In c_bs b -> length t < length b).
Proof.
  induction 1 as [|c b t S L N1 N2 D [A B]|e n b t I D [A B]|s n b t H S D [A B]|s1 n1 s2 n2 b t H1 R1 H2 R2 D [A B]].
  - split; auto. intros [].
  - rewrite !app_length. split; [lia|]. intros I. apply in_app_or in I as [I|I]; [|specialize (B I); lia].
    exfalso. destruct (N.ltb_spec c 128) as [Q|Q].
    + rewrite utf8_ascii in I by auto. destruct I as [I|[]]. apply N2. rewrite <- (N_ascii_embedding c) by lia. rewrite I. reflexivity.
    + pose proof (utf8_high c S Q) as F. rewrite Forall_forall in F. apply F in I. cbn in I. lia.
  - cbn [length]. split; intros; lia.
  - pose proof (utf8_len n). pose proof (hex4_len s n H). cbn [length]. rewrite !app_length. split; intros; lia.
  - pose proof (utf8_len (65536 + (n1 - 55296) * 1024 + (n2 - 56320))). pose proof (hex4_len s1 n1 H1). pose proof (hex4_len s2 n2 H2).
    cbn [length]. rewrite !app_length. cbn [length]. rewrite !app_length. split; intros; lia.
Qed.

(** ** Building values *)
Lemma one_char n : (32 <= n < 127)%N -> n <> 34%N -> n <> 92%N -> json_char [ascii_of_N n].
Proof. intros L A B. left. exists n. rewrite utf8_ascii by lia. repeat split; auto; [left; lia|lia]. Qed.

Lemma member_text k b s v : json_string (lit """" ++ k ++ lit """") -> says_value s v ->
  b = lit "{" ++ ((lit """" ++ k ++ lit """") ++ lit ":" ++ s) ++ lit "}" -> says_value b (VObject [(k, v)]).
Proof.
  intros K S ->. apply sv_object.
  replace ((lit """" ++ k ++ lit """") ++ lit ":" ++ s) with ([] ++ (lit """" ++ k ++ lit """") ++ [] ++ lit ":" ++ [] ++ s ++ [])
    by (cbn [app]; now rewrite app_nil_r).
  apply sm_last; auto; constructor.
Qed.
Lemma a_string : json_string (lit """" ++ lit "a" ++ lit """").
Proof. exists [lit "a"]. split; [reflexivity|]. constructor; [|constructor]. apply (one_char 97); lia. Qed.

Lemma says_text s v : says_value s v -> json_text s.
Proof.
  intros S. exists [], s, []. rewrite app_nil_r. split; [reflexivity|]. split; [constructor|]. split; [apply grammar_iff; eauto|constructor].
Qed.

Lemma tree_rejected s e : json_text s -> tparse s = Ok (GErr e) -> rejected s.
Proof.
  intros J E. split; auto. intros X h R. pose proof (parses_tree X h s (GErr e) R E) as (_ & h' & P & _). eauto.
Qed.

Lemma num_exp i c p t : json_int i -> (c = "e"%char \/ c = "E"%char) -> (p = [] \/ p = lit "+" \/ p = lit "-") -> t <> [] -> Forall is_digit t ->
  json_number (i ++ c :: p ++ t).
Proof. intros. exists [], i, [], (c :: p ++ t). repeat split; auto; [now left|right; eauto 8]. Qed.
Lemma digit_1 : json_int (lit "1").
Proof. right. exists "1"%char, []. repeat split; try constructor; try discriminate; cbn; lia. Qed.
Lemma digits_ok s : forallb (fun c => (48 <=? N_of_ascii c)%N && (N_of_ascii c <=? 57)%N) s = true -> Forall is_digit s.
Proof. apply forallb_ok. intros x H. apply andb_prop in H as [A B]. apply N.leb_le in A, B. unfold is_digit, digit. lia. Qed.

Lemma rfc_rejected : Forall rejected
  [lit "[1]"; lit "{} "; lit "{""a"":1e2}"; lit "{""a"":1.0e-2}"; lit "{""a"":18446744073709551616}"; lit "{""a"":""\\""}"].
Proof.
  constructor; [|constructor; [|constructor; [|constructor; [|constructor; [|constructor; [|constructor]]]]]].
  - eapply tree_rejected; [|vm_compute; reflexivity]. apply (says_text _ (VArray [VNumber (lit "1")])).
    apply (sv_array (lit "1")). apply (se_last [] (lit "1") _ []); [constructor| |constructor]. apply sv_number.
    exists [], (lit "1"), [], []. split; [reflexivity|]. split; [now left|]. split; [apply digit_1|]. split; now left.
  - eapply tree_rejected; [|vm_compute; reflexivity]. exists [], (lit "{}"), (lit " "). split; [reflexivity|].
    split; [constructor|]. split; [apply (jv_object0 []); constructor|]. constructor; [now left|constructor].
  - eapply tree_rejected; [|vm_compute; reflexivity]. eapply says_text, (member_text (lit "a") _ (lit "1e2")); [apply a_string| |reflexivity].
    apply sv_number. apply (num_exp (lit "1") "e"%char [] (lit "2")); auto using digit_1; [discriminate|now apply digits_ok].
  - eapply tree_rejected; [|vm_compute; reflexivity]. eapply says_text, (member_text (lit "a") _ (lit "1.0e-2")); [apply a_string| |reflexivity].
    apply sv_number. exists [], (lit "1"), (lit ".0"), (lit "e-2"). split; [reflexivity|]. split; [now left|]. split; [apply digit_1|]. split.
    + right. exists (lit "0"). repeat split; [discriminate|now apply digits_ok].
    + right. exists "e"%char, (lit "-"), (lit "2"). split; [reflexivity|]. repeat split; auto; [discriminate|now apply digits_ok].
  - eapply tree_rejected; [|vm_compute; reflexivity].
    eapply says_text, (member_text (lit "a") _ (lit "18446744073709551616")); [apply a_string| |reflexivity].
    apply sv_number. exists [], (lit "18446744073709551616"), [], []. split; [reflexivity|]. split; [now left|]. split; [|split; now left].
    right. exists "1"%char, (lit "8446744073709551616"). split; [reflexivity|]. split; [unfold is_digit, digit; cbn; lia|]. split; [discriminate|now apply digits_ok].
  - eapply tree_rejected; [|vm_compute; reflexivity].
    eapply says_text, (member_text (lit "a") _ (lit """\\""")); [apply a_string| |reflexivity].
    apply (sv_string (lit "\\")). exists [lit "\\"]. split; [reflexivity|]. constructor; [|constructor].
    right. left. exists c_bs. split; [reflexivity|]. right. now left.
Qed.

(** The only member of the object is a string that is not what the text says. *)
Lemma string_misread k b t kd :
  json_string (lit """" ++ k ++ lit """") -> json_string (lit """" ++ b ++ lit """") ->
  tparse (lit "{" ++ ((lit """" ++ k ++ lit """") ++ lit ":" ++ (lit """" ++ b ++ lit """")) ++ lit "}") = Ok (GVal (Some (DMap [(kd, DScal (SStr t))]))) ->
  ~ decodes b t -> misread (lit "{" ++ ((lit """" ++ k ++ lit """") ++ lit ":" ++ (lit """" ++ b ++ lit """")) ++ lit "}").
Proof.
  intros K B E N. exists [(k, VString b)]. eexists. split; [|split].
  - eapply member_text; [exact K|apply sv_string, B|reflexivity].
  - intros X h R. apply parses_tree; [auto|exact E].
  - intros A. inversion A as [| | | | |? kvs es F Q G]; subst. inversion F as [|[k0 v0] [k1 v1] ? l' [D V] F']; subst. inversion F'; subst. cbn in *. subst v1.
    injection Q as ->. destruct (G k1 (VString b)) as (d & D1 & D2); [now rewrite str_eqb_refl|]. rewrite str_eqb_refl in D1. injection D1 as <-.
    inversion D2; subst. contradiction.
Qed.

Lemma rfc_misread : Forall misread
  [lit "{""a"":""\n""}"; lit "{""a"":""\u0041""}"; lit "{""\"""":[]}"; lit "{""a"":""" ++ utf8 233 ++ lit """}"].
Proof.
  constructor; [|constructor; [|constructor; [|constructor; [|constructor]]]].
  - apply (string_misread (lit "a") (lit "\n") (lit "\n") (lit "a")); [apply a_string| |vm_compute; reflexivity|].
    + exists [lit "\n"]. split; [reflexivity|]. constructor; [|constructor]. right. left. exists "n"%char. split; [reflexivity|cbn; tauto].
    + intros D. apply decodes_len in D as [_ D]. cbn in D. specialize (D (or_introl eq_refl)). lia.
  - apply (string_misread (lit "a") (lit "\u0041") (lit "\u0041") (lit "a")); [apply a_string| |vm_compute; reflexivity|].
    + exists [lit "\u0041"]. split; [reflexivity|]. constructor; [|constructor]. right. right. exists (lit "0041"). split; [reflexivity|]. split; [reflexivity|].
      repeat (constructor; [cbn; tauto|]). constructor.
    + intros D. apply decodes_len in D as [_ D]. cbn in D. specialize (D (or_introl eq_refl)). lia.
  - exists [(lit "\""", VArray [])], (DMap [(lit "\""", DArr [])]). split; [|split].
    + apply (member_text (lit "\""") _ (lit "[]")); [|apply (sv_array0 []); constructor|reflexivity].
      exists [lit "\"""]. split; [reflexivity|]. constructor; [|constructor]. right. left. exists c_dq. split; [reflexivity|now left].
    + intros X h R. apply parses_tree; [auto|vm_compute; reflexivity].
    + intros A. inversion A as [| | | | |? kvs es F Q G]; subst. inversion F as [|[k0 v0] [k1 v1] ? l' [D V] F']; subst. inversion F'; subst. cbn in *. subst v1.
      injection Q as <-. apply decodes_len in D as [_ D]. cbn in D. specialize (D (or_introl eq_refl)). lia.
  - apply (string_misread (lit "a") (utf8 233) (latin1 (utf8 233)) (lit "a")); [apply a_string| |vm_compute; reflexivity|].
    + exists [utf8 233]. split; [reflexivity|]. constructor; [|constructor]. left. exists 233%N. repeat split; [left; lia|lia|lia|lia].
    + intros D. apply decodes_len in D as [D _]. vm_compute in D. lia.
Qed.

(** ** An example *)
Fixpoint simpleb (b : str) : bool :=
  match b with
  | [] => true
  | c :: t => if Ascii.eqb c c_bs then match t with d :: t' => Ascii.eqb d c_dq && simpleb t' | [] => false end
              else (32 <=? N_of_ascii c)%N && (N_of_ascii c <? 127)%N && negb (Ascii.eqb c c_dq) && simpleb t
  end.
Lemma simpleb_ok_len n : forall b, length b <= n -> simpleb b = true -> simple b /\ exists l, b = concat l /\ Forall json_char l.
Proof.
  induction n as [|n IH]; intros [|c t] L H; try (cbn in L; lia); try (split; [constructor|exists []; split; [reflexivity|constructor]]).
  cbn [simpleb] in H. destruct (Ascii.eqb_spec c c_bs) as [->|Nb].
  - destruct t as [|d t]; [discriminate|]. apply andb_prop in H as [D H]. apply Ascii.eqb_eq in D. subst d.
    destruct (IH t) as [S (l & -> & F)]; [cbn in L; lia|auto|]. split; [now constructor|]. exists ([c_bs; c_dq] :: l). split; [reflexivity|].
    constructor; auto. right. left. exists c_dq. split; [reflexivity|now left].
  - apply andb_prop in H as [H S]. apply andb_prop in H as [H D]. apply andb_prop in H as [A B]. apply N.leb_le in A. apply N.ltb_lt in B.
    apply negb_true_iff, Ascii.eqb_neq in D. destruct (IH t) as [St (l & -> & F)]; [cbn in L; lia|auto|].
    split; [constructor; auto; lia|]. exists ([c] :: l). split; [reflexivity|]. constructor; auto.
    rewrite <- (ascii_N_embedding c). apply one_char; [lia| |].
    + intros Q. apply D. rewrite <- (ascii_N_embedding c), Q. reflexivity.
    + intros Q. apply Nb. rewrite <- (ascii_N_embedding c), Q. reflexivity.
Qed.
Lemma simpleb_ok b : simpleb b = true -> simple b.
Proof. intros H. now apply (simpleb_ok_len (length b) b). Qed.
Lemma simpleb_string b : simpleb b = true -> json_string (lit """" ++ b ++ lit """").
Proof. intros H. destruct (simpleb_ok_len (length b) b (le_n _) H) as [_ (l & -> & F)]. exists l. auto. Qed.
Definition wsb (s : str) : bool := forallb (fun c => existsb (N.eqb (N_of_ascii c)) [32; 9; 10; 13]%N) s.
Lemma wsb_ok s : wsb s = true -> ws s.
Proof.
  apply forallb_ok. intros x H. apply existsb_exists in H as (y & I & E). apply N.eqb_eq in E. now subst.
Qed.

Definition ex_rfc : str :=
  lit "{ ""a"" : [1, -2.5,1.5e3 ],""q\""x"":null, ""b"":{""c"":true,""d"":""say \""hi\""""} ,""a"": 18446744073709551615}".
Definition ex_rfc_value : list (str * jval) :=
  [(lit "a", VArray [VNumber (lit "1"); VNumber (lit "-2.5"); VNumber (lit "1.5e3")]); (lit "q\""x", VNull);
   (lit "b", VObject [(lit "c", VBool true); (lit "d", VString (lit "say \""hi\"""))]); (lit "a", VNumber (lit "18446744073709551615"))].

Lemma num_1 : json_number (lit "1").
Proof. exists [], (lit "1"), [], []. split; [reflexivity|]. split; [now left|]. split; [apply digit_1|]. split; now left. Qed.
Lemma num_25 : json_number (lit "-2.5").
Proof.
  exists (lit "-"), (lit "2"), (lit ".5"), []. split; [reflexivity|]. split; [now right|]. split.
  { right. exists "2"%char, []. split; [reflexivity|]. split; [unfold is_digit, digit; cbn; lia|]. split; [discriminate|constructor]. }
  split; [|now left]. right. exists (lit "5"). split; [reflexivity|]. split; [discriminate|now apply digits_ok].
Qed.
Lemma num_15 : json_number (lit "1.5e3").
Proof.
  exists [], (lit "1"), (lit ".5"), (lit "e3"). split; [reflexivity|]. split; [now left|]. split; [apply digit_1|]. split.
  - right. exists (lit "5"). split; [reflexivity|]. split; [discriminate|now apply digits_ok].
  - right. exists "e"%char, [], (lit "3"). split; [reflexivity|]. split; [now left|]. split; [now left|]. split; [discriminate|now apply digits_ok].
Qed.
Lemma num_max : json_int (lit "18446744073709551615").
Proof.
  right. exists "1"%char, (lit "8446744073709551615"). split; [reflexivity|]. split; [unfold is_digit, digit; cbn; lia|].
  split; [discriminate|now apply digits_ok].
Qed.

Lemma ex_rfc_says : says_value ex_rfc (VObject ex_rfc_value).
Proof.
  apply (sv_object (lit " ""a"" : [1, -2.5,1.5e3 ],""q\""x"":null, ""b"":{""c"":true,""d"":""say \""hi\""""} ,""a"": 18446744073709551615")).
  apply (sm_more (lit " ") (lit "a") (lit " ") (lit " ") (lit "[1, -2.5,1.5e3 ]") _ []
    (lit """q\""x"":null, ""b"":{""c"":true,""d"":""say \""hi\""""} ,""a"": 18446744073709551615")); try (now apply wsb_ok); try (now apply simpleb_string).
  { apply (sv_array (lit "1, -2.5,1.5e3 ")).
    apply (se_more [] (lit "1") _ [] (lit " -2.5,1.5e3 ")); try (now apply wsb_ok); [apply sv_number, num_1|].
    apply (se_more (lit " ") (lit "-2.5") _ [] (lit "1.5e3 ")); try (now apply wsb_ok); [apply sv_number, num_25|].
    apply (se_last [] (lit "1.5e3") _ (lit " ")); try (now apply wsb_ok). apply sv_number, num_15. }
  apply (sm_more [] (lit "q\""x") [] [] (lit "null") _ []
    (lit " ""b"":{""c"":true,""d"":""say \""hi\""""} ,""a"": 18446744073709551615")); try (now apply wsb_ok); try (now apply simpleb_string); [constructor|].
  apply (sm_more (lit " ") (lit "b") [] [] (lit "{""c"":true,""d"":""say \""hi\""""}") _ (lit " ")
    (lit """a"": 18446744073709551615")); try (now apply wsb_ok); try (now apply simpleb_string).
  { apply (sv_object (lit """c"":true,""d"":""say \""hi\""""")).
    apply (sm_more [] (lit "c") [] [] (lit "true") _ [] (lit """d"":""say \""hi\""""")); try (now apply wsb_ok); try (now apply simpleb_string); [constructor|].
    apply (sm_last [] (lit "d") [] [] (lit """say \""hi\""""") _ []); try (now apply wsb_ok); try (now apply simpleb_string).
    apply (sv_string (lit "say \""hi\""")). now apply simpleb_string. }
  apply (sm_last [] (lit "a") [] (lit " ") (lit "18446744073709551615") _ []); try (now apply wsb_ok); try (now apply simpleb_string).
  apply sv_number. exists [], (lit "18446744073709551615"), [], []. split; [reflexivity|]. split; [now left|]. split; [apply num_max|]. split; now left.
Qed.

Lemma decimal_bound s : Forall is_digit s -> (decimal s < 10 ^ Z.of_nat (length s))%Z.
Proof.
  induction s as [|c t IH] using rev_ind; intros F; [cbn; lia|]. apply Forall_app in F as [Ft Fc]. inversion Fc as [|? ? D _]; subst.
  rewrite decimal_app, app_length. cbn [length]. replace (decimal [c]) with (digit c) by (cbn; lia). specialize (IH Ft).
  rewrite Nat2Z.inj_add, Z.pow_add_r by lia. change (10 ^ Z.of_nat 1)%Z with 10%Z. unfold is_digit in D. lia.
Qed.
Lemma short_exponent s : length s <= 5 -> small_exponent s.
Proof.
  intros L a c p ds -> _ _ F. pose proof (decimal_bound ds F) as B. rewrite app_length in L. cbn [length] in L. rewrite app_length in L.
  assert (10 ^ Z.of_nat (length ds) <= 10 ^ 4)%Z by (apply Z.pow_le_mono_r; lia). lia.
Qed.
Lemma no_exponent s : ~ In "e"%char s -> ~ In "E"%char s -> small_exponent s.
Proof. intros A B a c p ds -> [->| ->] _ _; [exfalso; apply A|exfalso; apply B]; apply in_or_app; right; now left. Qed.

Lemma rfc_example : exists ms,
  reachable std_ext ex_state /\ says_value ex_rfc (VObject ms) /\ Forall simple (strings (VObject ms))
  /\ Forall readable (numbers (VObject ms)) /\ Forall small_exponent (numbers (VObject ms))
  /\ (forall k, In k (container_keys (VObject ms)) -> ~ In c_dq k) /\ length ms = 4 /\ length (numbers (VObject ms)) = 4.
Proof.
  exists ex_rfc_value. split; [apply ex_reachable|]. split; [apply ex_rfc_says|]. split; [|split; [|split; [|split; [|split; reflexivity]]]].
  - cbn [strings ex_rfc_value flat_map fst snd app]. repeat (constructor; [now apply simpleb_ok|]). constructor.
  - cbn [numbers ex_rfc_value flat_map fst snd app]. constructor; [|constructor; [|constructor; [|constructor; [|constructor]]]].
    + left. exists false, (lit "1"). split; [reflexivity|]. split; [apply digit_1|]. vm_compute. reflexivity.
    + right. exists true, (lit "2.5"), 25%Z, 10%Z. split; [reflexivity|]. split.
      * apply (ex_fraction (lit "2") (lit "5")); [now apply digits_ok..|discriminate].
      * unfold overflows. vm_compute. auto.
    + right. exists false, (lit "1.5e3"), 15000%Z, 10%Z. split; [reflexivity|]. split.
      * exists (lit "1"), (lit "5"), (lit "e3"), 3%Z. split; [reflexivity|]. split; [now apply digits_ok|]. split; [now apply digits_ok|].
        split; [discriminate|]. split; [|split; reflexivity]. right. exists "e"%char, [], (lit "3"). split; [reflexivity|]. split; [now left|].
        split; [now left|]. split; [|lia]. split; [discriminate|]. split; [now apply digits_ok|reflexivity].
      * unfold overflows. vm_compute. auto.
    + left. exists false, (lit "18446744073709551615"). split; [reflexivity|]. split; [apply num_max|]. vm_compute. reflexivity.
  - cbn [numbers ex_rfc_value flat_map fst snd app]. repeat (constructor; [first [apply short_exponent; cbn; lia|apply no_exponent; cbn; intuition discriminate]|]).
    constructor.
  - cbn. intros k [<-|[<-|[]]]; cbn; intuition discriminate.
Qed.
