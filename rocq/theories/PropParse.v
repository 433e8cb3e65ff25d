(** * Properties of Parse: C03-C13, C15-C18, C39, C40 *)
From Coq Require Import Ascii String List NArith ZArith Bool Lia.
From Verif Require Import GoStr GoNum GoFloat Heap Common ValueModel ArrayModel MapModel JsonModel ParserModel
  SpecDict SpecNum SpecWorld Inv World Reach SpecFloat SpecDoc SpecText SpecToken SpecParse TreeParser ParseTop
  TokenFacts ParseFacts PosFacts TidyFacts TypedFacts TextDec ParseMore SpecPanic PanicFacts FloatFacts ExampleState ExampleText.
Import ListNotations.

(** ** C03: texts and their documents *)

Theorem c03_denotation : forall X h l T,
  reachable X h -> members_ok true l ->
  (forall t, In t (tokens_members l) -> token_means t (T t)) ->
  parses X h (text_of (JMap l)) (outcome T l).
Proof. intros X h l T R OK. apply parse_text; auto. now apply strict_lenient. Qed.

Theorem c03_lenient : forall X h l T,
  reachable X h -> members_ok false l ->
  (forall t, In t (tokens_members l) -> token_means t (T t)) ->
  parses X h (text_of (JMap l)) (outcome T l).
Proof. exact parse_text. Qed.

(** Whatever the scalars are, Parse returns a document or errors. *)
Theorem c03_total : forall X h l,
  reachable X h -> members_ok false l -> exists r, parses X h (text_of (JMap l)) r.
Proof. intros X h l R OK. exists (outcome T0 l). now apply parse_any. Qed.

Example c03_ex :
  reachable std_ext ex_state /\ members_ok true ex_text
  /\ (forall t, In t (tokens_members ex_text) -> token_means t (ex_T t))
  /\ text_of (JMap ex_text)
     = lit "{ ""a"" : [ 1 , -2, null,""x\""y""] , ""b"":{""a"":true, ""c"" : 1.5},""a"":300 }"
  /\ outcome ex_T ex_text = GVal ex_doc.
Proof.
  split; [apply ex_reachable|]. split; [apply ex_text_ok|]. split; [exact ex_text_tokens|].
  split; vm_compute; reflexivity.
Qed.

(** ** C04: blanks *)

Theorem c04_blanks : forall X h l l',
  reachable X h -> members_ok false l -> members_ok false l' -> same_members l l' ->
  exists r, parses X h (text_of (JMap l)) r /\ parses X h (text_of (JMap l')) r.
Proof. exact parse_blanks. Qed.

Example c04_ex :
  members_ok false ex_text /\ members_ok false ex_text2 /\ same_members ex_text ex_text2
  /\ text_of (JMap ex_text) <> text_of (JMap ex_text2).
Proof.
  split; [apply ex_text_ok|]. split; [apply ex_text2_ok|]. split; [|discriminate]. repeat constructor.
Qed.

(** ** C05: a map or errors *)

Theorem c05_one_result : forall X h s r h',
  reachable X h -> Parse X s h = Ok (r, h') ->
  (exists m, r = GVal (Some m) /\ has (w_map (view h')) m) \/ (exists e, r = GErr e /\ e <> []).
Proof. exact parse_one_result. Qed.

(** Parse always ends: with a map, with errors or with a panic. *)
Theorem c05_ends : forall X h s,
  reachable X h ->
  Parse X s h = Panic \/ (exists e, parses X h s (GErr e)) \/ (exists d, typed d /\ parses X h s (GVal d)).
Proof. exact parse_outcomes. Qed.

Example c05_ex : reachable std_ext ex_state
  /\ exists r h', Parse std_ext (a_of "[1,{}]") ex_state = Ok (r, h').
Proof. split; [apply ex_reachable|]. eexists _, _. vm_compute. reflexivity. Qed.

(** ** C06: braces around the text *)

Theorem c06_wrapping : forall X h s,
  reachable X h ->
  (s = [] \/ (forall t, s <> c_lb :: t) \/ (forall t, s <> t ++ [c_rb])) ->
  exists a b c, Parse X s h = Ok (GErr (a ++ b ++ c), h)
    /\ (s = [] /\ a = [EEmpty] \/ s <> [] /\ a = [])
    /\ ((forall t, s <> c_lb :: t) /\ b = [ENoOpen] \/ (exists t, s = c_lb :: t) /\ b = [])
    /\ ((forall t, s <> t ++ [c_rb]) /\ c = [ENoClose] \/ (exists t, s = t ++ [c_rb]) /\ c = []).
Proof. exact parse_wrapping. Qed.

(** A text with a line break after it. *)
Example c06_ex : reachable std_ext ex_state /\ forall t, a_of "1" ++ [c_nl] <> t ++ [c_rb].
Proof. split; [apply ex_reachable|]. intros t E. apply app_inj_tail in E as [_ E]. discriminate. Qed.

(** ** C07: balance *)

Theorem c07_balance : forall X h s m h',
  reachable X h -> Parse X s h = Ok (GVal m, h') ->
  let (o, q) := outside None false s in
  occurrences c_lb o = occurrences c_rb o /\ occurrences c_ls o = occurrences c_rs o /\ q = false.
Proof. exact parse_balance. Qed.

Example c07_ex : reachable std_ext ex_state
  /\ (exists m h', Parse std_ext (a_of "[""{\""["",{}]") ex_state = Ok (GVal m, h'))
  /\ outside None false (a_of "[""{\""["",{}]") = (lit "{:[,{}]}", false).
Proof. split; [apply ex_reachable|]. split; [eexists _, _|]; vm_compute; reflexivity. Qed.

(** ** C08: panics *)

(** Texts on which Parse panics, in every state. *)
Theorem c08_refuted : forall X h,
  reachable X h ->
  Forall (fun s => Parse X s h = Panic)
    [lit "{}}"; lit "{}{}"; lit "{""a"":1}}"; lit "{""a"":1}[}"; lit "{""a"":\""}"; lit "{""a"""":""}"].
Proof. intros X h R. repeat constructor; (apply parse_panic; [auto|vm_compute; reflexivity]). Qed.

(** Parse panics exactly on the texts that [panics_on] of SpecPanic.v describes, and
    returns on all others. *)
Theorem c08_exact : forall X h s,
  reachable X h -> (Parse X s h = Panic <-> panics_on s = true).
Proof. exact parse_panics_iff. Qed.

Theorem c08_returns : forall X h s,
  reachable X h -> ((exists r h', Parse X s h = Ok (r, h')) <-> panics_on s = false).
Proof. exact parse_returns_iff. Qed.

Example c08_exact_ex :
  map (fun s => panics_on s)
    [lit "{""a"":[1}"; lit "{""a"" ""b"":}"; lit "{""a"":\""}"; lit "{""a"":1}}"; lit "{}{}"]
  = [false; false; true; true; true].
Proof. vm_compute. reflexivity. Qed.

(** No panic on texts of the lenient grammar, nor on any beginning of one. *)
Theorem c08_no_panic : forall X h l,
  reachable X h -> members_ok false l -> Parse X (text_of (JMap l)) h <> Panic.
Proof. exact parse_no_panic. Qed.

Theorem c08_truncated : forall X h l a b,
  reachable X h -> members_ok false l -> text_of (JMap l) = a ++ b -> Parse X a h <> Panic.
Proof. exact parse_truncated. Qed.

Example c08_ex : reachable std_ext ex_state /\ members_ok false ex_lenient
  /\ text_of (JMap ex_lenient)
     = lit "{junk ""a"" ? : t r ue, ""b"":,, ""c"":[""p"" ""q"",,7,] ""z"":{""k"":1}trailing}".
Proof. split; [apply ex_reachable|]. split; [apply ex_lenient_ok|vm_compute; reflexivity]. Qed.

(** ** C09: integers *)

Theorem c09_unsigned : forall X h l d p t z,
  reachable X h -> members_ok false l -> plain_tokens l -> parses X h (text_of (JMap l)) (GVal d) ->
  text_at (JMap l) p = Some (JTok t) -> numeral (squeeze t) z ->
  exists k, narrowest unsigned_types z k /\ doc_at d p = Some (DScal (SInt k z)).
Proof. exact at_nat. Qed.

Theorem c09_signed : forall X h l d p t u z,
  reachable X h -> members_ok false l -> plain_tokens l -> parses X h (text_of (JMap l)) (GVal d) ->
  text_at (JMap l) p = Some (JTok t) -> squeeze t = "-"%char :: u -> numeral u z ->
  exists k, narrowest signed_types (- z)%Z k /\ doc_at d p = Some (DScal (SInt k (- z)%Z)).
Proof. exact at_neg. Qed.

Theorem c09_in_range : forall X h z (neg : bool) u,
  reachable X h -> numeral u z -> (if neg then (z <= 2 ^ 63)%Z else (z < 2 ^ 64)%Z) ->
  exists k, narrowest (if neg then signed_types else unsigned_types) (if neg then - z else z)%Z k
    /\ parses X h (text_of (alone (JTok (sign neg ++ u)))) (GVal (DMap [(lit "x", DScal (SInt k (if neg then - z else z)%Z))])).
Proof. exact alone_integer. Qed.

Theorem c09_out_of_range : forall X h l t z (neg : bool) u,
  reachable X h -> members_ok false l -> In t (tokens_members l) -> Forall plain t ->
  squeeze t = sign neg ++ u -> numeral u z -> (if neg then (2 ^ 63 < z)%Z else (2 ^ 64 <= z)%Z) ->
  exists es, parses X h (text_of (JMap l)) (GErr es) /\ In (if neg then EIntSyn else EUintSyn) es.
Proof. exact integer_out_of_range. Qed.

Example c09_ex :
  reachable std_ext ex_state /\ members_ok false ex_text /\ plain_tokens ex_text
  /\ parses std_ext ex_state (text_of (JMap ex_text)) (GVal ex_doc)
  /\ text_at (JMap ex_text) [PKey (lit "a")] = Some (JTok (lit "300"))
  /\ numeral (squeeze (lit "300")) 300
  /\ text_of (alone (JTok (sign true ++ lit "0128"))) = lit "{""x"":-0128}" /\ numeral (lit "0128") 128.
Proof.
  split; [apply ex_reachable|]. split; [apply ex_text_ok|]. split; [apply ex_text_ok|]. split; [exact ex_parses|].
  split; [vm_compute; reflexivity|]. split; [apply numeralb_ok; vm_compute; reflexivity|].
  split; [vm_compute; reflexivity|apply numeralb_ok; vm_compute; reflexivity].
Qed.
Example c09_ex_range :
  members_ok false ex_bad /\ In (lit "99999999999999999999") (tokens_members ex_bad)
  /\ numeral (lit "99999999999999999999") 99999999999999999999 /\ (2 ^ 64 <= 99999999999999999999)%Z.
Proof.
  split; [apply ex_bad_ok|]. split; [cbn; auto|]. split; [apply numeralb_ok; vm_compute; reflexivity|lia].
Qed.

(** ** C10: decimals *)

Theorem c10_nearest : forall X h l d p t neg u n q,
  reachable X h -> members_ok false l -> plain_tokens l -> parses X h (text_of (JMap l)) (GVal d) ->
  text_at (JMap l) p = Some (JTok t) -> squeeze t = sign neg ++ u -> fraction u n q ->
  exists k f, doc_at d p = Some (DScal (SFlt k f)) /\ rounds_to k neg n q (Some f)
    /\ (k = F32 \/ rounds_to F32 neg n q None).
Proof. exact at_decimal. Qed.

Theorem c10_out_of_range : forall X h l t neg u n q,
  reachable X h -> members_ok false l -> In t (tokens_members l) -> Forall plain t ->
  squeeze t = sign neg ++ u -> fraction u n q -> rounds_to F64 neg n q None ->
  exists es, parses X h (text_of (JMap l)) (GErr es) /\ In EFloatSyn es.
Proof. exact decimal_out_of_range. Qed.

Example c10_ex :
  members_ok false ex_text /\ plain_tokens ex_text
  /\ parses std_ext ex_state (text_of (JMap ex_text)) (GVal ex_doc)
  /\ text_at (JMap ex_text) [PKey (lit "b"); PKey (lit "c")] = Some (JTok (lit "1.5"))
  /\ squeeze (lit "1.5") = sign false ++ lit "1.5" /\ fraction (lit "1.5") 15 10.
Proof.
  split; [apply ex_text_ok|]. split; [apply ex_text_ok|]. split; [exact ex_parses|].
  split; [vm_compute; reflexivity|]. split; [reflexivity|exact ex_fraction15].
Qed.

(** The literal 0.1 loses precision: the float64 nearest to it is closer. *)
Theorem c10_precision_refuted : forall X h,
  reachable X h ->
  exists m e m' e',
    parses X h (a_of "0.1") (GVal (DMap [(lit "a", DScal (SFlt F32 (FFin false m e)))]))
    /\ rounds_to F64 false 1 10 (Some (FFin false m' e')) /\ (dist 1 10 m' e' < dist 1 10 m e)%Z.
Proof.
  intros X h R. exists 13421773%Z, (-27)%Z, 7205759403792794%Z, (-56)%Z.
  split; [apply parses_tree; [auto|vm_compute; reflexivity]|]. split; [|vm_compute; reflexivity].
  assert (Q : round_opt F64 false 1 10 = Some (FFin false 7205759403792794 (-56))) by (vm_compute; reflexivity).
  rewrite <- Q. apply rounds_to_round; lia.
Qed.

(** Literals accepted although they are no JSON numbers, and a JSON number that is
    not accepted. *)
Theorem c10_syntax_refuted : forall X h,
  reachable X h ->
  Forall (fun t => parses X h (a_of t) (GVal (DMap [(lit "a", DScal (SFlt F32 (FFin false 12582912 (-23))))])))
    ["+1.5"; "0x1.8p0"; "01.5"; "1 . 5"; "0_1.5"]%string
  /\ parses X h (a_of "15.0e-1") (GErr [ENegPos]).
Proof.
  intros X h R. split; [repeat constructor|]; (apply parses_tree; [auto|vm_compute; reflexivity]).
Qed.

(** ** C11: malformed scalars *)

Theorem c11_all_errors : forall X h l T,
  reachable X h -> members_ok false l ->
  (forall t, In t (tokens_members l) -> token_means t (T t)) -> scalar_errs T l <> [] ->
  parses X h (text_of (JMap l)) (GErr (scalar_errs T l)).
Proof. exact all_errors. Qed.

(** One malformed scalar is enough, whatever the others are. *)
Theorem c11_one_error : forall X h l t e,
  reachable X h -> members_ok false l -> In t (tokens_members l) -> token_means t (TokErr e) -> e <> [] ->
  exists es, parses X h (text_of (JMap l)) (GErr es) /\ incl e es.
Proof. exact some_error. Qed.

Example c11_ex :
  members_ok false ex_bad /\ (forall t, In t (tokens_members ex_bad) -> token_means t (ex_bad_T t))
  /\ text_of (JMap ex_bad) = lit "{""a"":[1-,{""b"":""s"",""c"":2.5.1}],""d"":--3.,""e"":99999999999999999999}"
  /\ scalar_errs ex_bad_T ex_bad = [ENegPos; EDotCount; ENegCount; EUintSyn].
Proof. split; [apply ex_bad_ok|]. split; [exact ex_bad_tokens|]. split; vm_compute; reflexivity. Qed.

(** ** C12: true, false, null *)

Theorem c12_keywords : forall X h l d p t,
  reachable X h -> members_ok false l -> plain_tokens l -> parses X h (text_of (JMap l)) (GVal d) ->
  text_at (JMap l) p = Some (JTok t) ->
  (squeeze t = lit "true" -> doc_at d p = Some (DScal (SBool true)))
  /\ (squeeze t = lit "false" -> doc_at d p = Some (DScal (SBool false)))
  /\ (squeeze t = lit "null" -> doc_at d p = Some DNull).
Proof. exact at_keyword. Qed.

Example c12_ex :
  members_ok false ex_lenient /\ plain_tokens ex_lenient
  /\ parses std_ext ex_state (text_of (JMap ex_lenient)) (GVal ex_lenient_doc)
  /\ text_at (JMap ex_lenient) [PKey (lit "a")] = Some (JTok (lit "t r ue")) /\ squeeze (lit "t r ue") = lit "true".
Proof.
  split; [apply ex_lenient_ok|]. split; [apply ex_lenient_ok|]. split; [exact ex_lenient_parses|].
  split; vm_compute; reflexivity.
Qed.

(** ** C13: strings *)

Theorem c13_content : forall X h l d p b,
  reachable X h -> members_ok false l -> plain_tokens l -> parses X h (text_of (JMap l)) (GVal d) ->
  text_at (JMap l) p = Some (JStr b) -> doc_at d p = Some (DScal (SStr (unescape (latin1 b)))).
Proof. exact at_string. Qed.

Theorem c13_ascii : forall s, Forall (fun c => (N_of_ascii c < 128)%N) s -> latin1 s = s.
Proof. exact latin1_ascii. Qed.

(** The two bytes of the UTF-8 encoding of U+00E9 come back as four. *)
Theorem c13_utf8_refuted : forall X h,
  reachable X h ->
  let e := [ascii_of_N 195; ascii_of_N 169] in
  parses X h (lit "{""a"":""" ++ e ++ lit """}")
    (GVal (DMap [(lit "a", DScal (SStr [ascii_of_N 195; ascii_of_N 131; ascii_of_N 194; ascii_of_N 169]))])).
Proof. intros X h R e. apply parses_tree; [auto|vm_compute; reflexivity]. Qed.

(** Other escapes are not decoded. *)
Theorem c13_escapes_refuted : forall X h,
  reachable X h ->
  parses X h (lit "{""a"":""x\n\\Ay""}") (GVal (DMap [(lit "a", DScal (SStr (lit "x\n\\Ay")))])).
Proof. intros X h R. apply parses_tree; [auto|vm_compute; reflexivity]. Qed.

Example c13_ex :
  let l := MCons [] (lit "k") [] [] (JArr (ECons [] (JStr (lit "a\""{,:\n")) [] false (ENil []))) [] false (MNil []) in
  members_ok false l /\ plain_tokens l
  /\ parses std_ext ex_state (text_of (JMap l)) (GVal (DMap [(lit "k", DArr [DScal (SStr (lit "a""{,:\n"))])]))
  /\ text_at (JMap l) [PKey (lit "k"); PIndex 0] = Some (JStr (lit "a\""{,:\n"))
  /\ unescape (latin1 (lit "a\""{,:\n")) = lit "a""{,:\n".
Proof.
  split; [apply membersb_ok; vm_compute; reflexivity|]. split; [apply plain_tokensb_ok; vm_compute; reflexivity|].
  split; [apply parses_tree; [apply ex_reachable|vm_compute; reflexivity]|]. split; vm_compute; reflexivity.
Qed.

(** ** C15: keys *)

Theorem c15_keys : forall X h l d p l' k v,
  reachable X h -> members_ok false l -> plain_tokens l -> parses X h (text_of (JMap l)) (GVal d) ->
  text_at (JMap l) p = Some (JMap l') -> In (k, v) (raw_members l') -> present v = true ->
  exists es, doc_at d p = Some (DMap es)
    /\ In (match v with JTok _ | JStr _ => unescape (latin1 k) | _ => latin1 k end) (dict_keys es).
Proof. exact at_key. Qed.

(** The key of a container is not unescaped. *)
Theorem c15_container_refuted : forall X h,
  reachable X h ->
  parses X h (lit "{""p\""q"":1,""r\""s"":{},""t\""u"":[]}")
    (GVal (DMap [(lit "p""q", DScal (SInt KUInt8 1)); (lit "r\""s", DMap []); (lit "t\""u", DArr [])])).
Proof. intros X h R. apply parses_tree; [auto|vm_compute; reflexivity]. Qed.

Example c15_ex :
  let l := MCons [] (lit "p\""q") [] [] (JTok (lit "1")) [] false (MNil []) in
  members_ok false l /\ plain_tokens l
  /\ parses std_ext ex_state (text_of (JMap l)) (GVal (DMap [(lit "p""q", DScal (SInt KUInt8 1))]))
  /\ In (lit "p\""q", JTok (lit "1")) (raw_members l) /\ unescape (latin1 (lit "p\""q")) = lit "p""q".
Proof.
  split; [apply membersb_ok; vm_compute; reflexivity|]. split; [apply plain_tokensb_ok; vm_compute; reflexivity|].
  split; [apply parses_tree; [apply ex_reachable|vm_compute; reflexivity]|]. split; [now left|vm_compute; reflexivity].
Qed.

(** ** C16: duplicate keys *)

(** The keys of an object are in the order of their first occurrence, and each has
    the value that its last occurrence has on its own. *)
Theorem c16_duplicates : forall X h l d p l',
  reachable X h -> members_ok false l -> plain_tokens l -> parses X h (text_of (JMap l)) (GVal d) ->
  text_at (JMap l) p = Some (JMap l') ->
  exists es, doc_at d p = Some (DMap es) /\ dict_keys es = first_keys (map fst (member_list l'))
    /\ forall k v, last_of k (member_list l') = Some v ->
         exists d', dict_get es k = Some d' /\ parses X h (text_of (alone v)) (GVal (DMap [(lit "x", d')])).
Proof. exact at_object. Qed.

Example c16_ex :
  members_ok false ex_text /\ plain_tokens ex_text
  /\ parses std_ext ex_state (text_of (JMap ex_text)) (GVal ex_doc)
  /\ text_at (JMap ex_text) [] = Some (JMap ex_text)
  /\ map fst (member_list ex_text) = [lit "a"; lit "b"; lit "a"]
  /\ first_keys (map fst (member_list ex_text)) = [lit "a"; lit "b"]
  /\ last_of (lit "a") (member_list ex_text) = Some (JTok (lit "300")).
Proof.
  split; [apply ex_text_ok|]. split; [apply ex_text_ok|]. split; [exact ex_parses|].
  repeat split; vm_compute; reflexivity.
Qed.

(** ** C17: arrays *)

Theorem c17_elements : forall X h l d p l',
  reachable X h -> members_ok false l -> plain_tokens l -> parses X h (text_of (JMap l)) (GVal d) ->
  text_at (JMap l) p = Some (JArr l') ->
  exists ds, doc_at d p = Some (DArr ds)
    /\ Forall2 (fun v d' => parses X h (text_of (alone v)) (GVal (DMap [(lit "x", d')]))) (elem_list l') ds.
Proof. exact at_elements. Qed.

Example c17_ex :
  members_ok false ex_lenient /\ plain_tokens ex_lenient
  /\ parses std_ext ex_state (text_of (JMap ex_lenient)) (GVal ex_lenient_doc)
  /\ exists l', text_at (JMap ex_lenient) [PKey (lit "c")] = Some (JArr l')
       /\ elem_list l' = [JStr (lit "p"); JStr (lit "q"); JTok (lit "7")].
Proof.
  split; [apply ex_lenient_ok|]. split; [apply ex_lenient_ok|]. split; [exact ex_lenient_parses|].
  eexists. split; vm_compute; reflexivity.
Qed.

(** ** C18: lenient texts *)

Theorem c18_tidy : forall X h l,
  reachable X h -> members_ok false l -> plain_tokens l ->
  members_ok true (tidy_members l)
  /\ exists r, parses X h (text_of (JMap l)) r /\ parses X h (text_of (JMap (tidy_members l))) r.
Proof. exact parse_tidy. Qed.

Example c18_ex :
  members_ok false ex_lenient /\ plain_tokens ex_lenient
  /\ text_of (JMap (tidy_members ex_lenient)) = lit "{""a"":true,""c"":[""p"",""q"",7],""z"":{""k"":1}}".
Proof. split; [apply ex_lenient_ok|]. split; [apply ex_lenient_ok|vm_compute; reflexivity]. Qed.

(** Mismatched brackets and a second object are accepted. *)
Theorem c18_rejection_refuted : forall X h,
  reachable X h ->
  parses X h (lit "{""a"":[1},""b"":{""c"":2]}")
    (GVal (DMap [(lit "a", DArr [DScal (SInt KUInt8 1)]); (lit "b", DMap [(lit "c", DScal (SInt KUInt8 2))])]))
  /\ parses X h (lit "{""a"":1}{""b"":2}") (GVal (DMap [(lit "a", DScal (SInt KUInt8 1))]))
  /\ parses X h (lit "{ ] ""a"": [ 1 }") (GVal (DMap [(lit "a", DArr [DScal (SInt KUInt8 1)])]))
  /\ parses X h (lit "{""a"":1 2}") (GVal (DMap [(lit "a", DScal (SInt KUInt8 12))]))
  /\ parses X h (lit "{""a"":}") (GVal (DMap [])).
Proof.
  intros X h R. repeat split; (apply parses_tree; [auto|vm_compute; reflexivity]).
Qed.

(** ** C39: fresh, tree-shaped results *)

Theorem c39_fresh_tree : forall X h s m h',
  reachable X h -> Parse X s h = Ok (GVal m, h') ->
  exists m', m = Some m' /\ reachable X h' /\ unchanged h h' /\ no_sharing (view h') m'
    /\ (forall p l, object_at (view h') m' p l -> new_in h l)
    /\ (forall p v, value_at (view h') m' p v -> new_in h v).
Proof. exact parse_fresh. Qed.

Example c39_ex : reachable std_ext ex_state
  /\ exists m h', Parse std_ext (text_of (JMap ex_text)) ex_state = Ok (GVal m, h').
Proof. split; [apply ex_reachable|]. eexists _, _. vm_compute. reflexivity. Qed.

(** ** C40: typing *)

Theorem c40_typed : forall X h s m h',
  reachable X h -> Parse X s h = Ok (GVal m, h') ->
  exists m' d, m = Some m' /\ rep_obj NoNils (view h') (new_in h) (IMap m') d /\ typed d.
Proof. exact parse_typed. Qed.

(** Also on texts outside the grammar. *)
Example c40_ex : reachable std_ext ex_state
  /\ exists m h', Parse std_ext (lit "{""a"":[-0},""b"":{""c"":0x1.8p3]}") ex_state = Ok (GVal m, h').
Proof. split; [apply ex_reachable|]. eexists _, _. vm_compute. reflexivity. Qed.

Print Assumptions c03_denotation.
Print Assumptions c03_lenient.
Print Assumptions c03_total.
Print Assumptions c04_blanks.
Print Assumptions c05_one_result.
Print Assumptions c05_ends.
Print Assumptions c06_wrapping.
Print Assumptions c07_balance.
Print Assumptions c08_refuted.
Print Assumptions c08_exact.
Print Assumptions c08_returns.
Print Assumptions c08_no_panic.
Print Assumptions c08_truncated.
Print Assumptions c09_unsigned.
Print Assumptions c09_signed.
Print Assumptions c09_in_range.
Print Assumptions c09_out_of_range.
Print Assumptions c10_nearest.
Print Assumptions c10_out_of_range.
Print Assumptions c10_precision_refuted.
Print Assumptions c10_syntax_refuted.
Print Assumptions c11_all_errors.
Print Assumptions c11_one_error.
Print Assumptions c12_keywords.
Print Assumptions c13_content.
Print Assumptions c13_ascii.
Print Assumptions c13_utf8_refuted.
Print Assumptions c13_escapes_refuted.
Print Assumptions c15_keys.
Print Assumptions c15_container_refuted.
Print Assumptions c16_duplicates.
Print Assumptions c17_elements.
Print Assumptions c18_tidy.
Print Assumptions c18_rejection_refuted.
Print Assumptions c39_fresh_tree.
Print Assumptions c40_typed.
