(** * The result of Parse comes from its text and is not larger: C72 *)
From Coq Require Import Ascii String List NArith ZArith Bool Lia.
From Verif Require Import GoStr GoNum GoFloat Heap Common ValueModel ArrayModel MapModel JsonModel ParserModel
  SpecDict SpecNum SpecWorld World Reach SpecFloat SpecDoc SpecText SpecToken SpecParse ParseFacts SpecRead SpecOrigin
  OriginFacts ExampleState.
Import ListNotations.

(** Of any text that Parse accepts: every key and every string of the result stands in
    quotation marks in the text, every number, boolean and null is what a piece of the
    text says. *)
Theorem c72_from_text : forall X h s m h',
  reachable X h -> Parse X s h = Ok (GVal m, h') ->
  exists m' d, m = Some m' /\ rep_obj NoNils (view h') (new_in h) (IMap m') d /\ comes_from s d.
Proof. exact parse_comes. Qed.

(** The result is not larger than the text, bytes that are not ASCII counting twice, and
    has no more arrays and objects than there are opening brackets outside quotations. *)
Theorem c72_size : forall X h s m h',
  reachable X h -> Parse X s h = Ok (GVal m, h') ->
  exists m' d, m = Some m' /\ rep_obj NoNils (view h') (new_in h) (IMap m') d
    /\ (size d <= length (latin1 s))%nat
    /\ (containers d <= occurrences c_lb (fst (outside None false s)) + occurrences c_ls (fst (outside None false s)))%nat.
Proof. exact parse_size. Qed.

(** That strings come only from quotations of the text is false: here the quotation marks
    around b follow backslashes, so none of them opens a quotation, and yet b is a string
    in the result. *)
Theorem c72_quotation_refuted : forall X h,
  reachable X h ->
  parses X h (lit "{""a"":\""b\""}") (GVal (DMap [(lit "a", DScal (SStr (lit "b")))]))
  /\ In "b"%char (fst (outside None false (lit "{""a"":\""b\""}"))).
Proof. exact backslash_quotes. Qed.

(** A text with junk that is accepted, its document and its size. *)
Definition ex_origin : str := lit "{ junk ""k\""1"" x : [1.5,{""x"":-3} ""a\""b"" null],, ""k\""1"" : tr ue}".
Definition ex_origin_doc : doc := DMap [(lit "k\""1", DArr [DScal (SFlt F32 (FFin false (3 * 2 ^ 22) (-23)));
  DMap [(lit "x", DScal (SInt KInt8 (-3)))]; DScal (SStr (lit "a""b")); DNull]); (lit "k""1", DScal (SBool true))].
Example c72_ex : reachable std_ext ex_state
  /\ (exists m h', Parse std_ext ex_origin ex_state = Ok (GVal (Some m), h'))
  /\ parses std_ext ex_state ex_origin (GVal ex_origin_doc)
  /\ size ex_origin_doc = 19%nat /\ containers ex_origin_doc = 3%nat /\ length ex_origin = 62%nat.
Proof.
  assert (P : parses std_ext ex_state ex_origin (GVal ex_origin_doc)) by (apply parses_tree; [apply ex_reachable|vm_compute; reflexivity]).
  split; [apply ex_reachable|]. split; [destruct P as (h' & m & P & _); eauto|]. split; [exact P|]. vm_compute. auto.
Qed.

Print Assumptions c72_from_text.
Print Assumptions c72_size.
Print Assumptions c72_quotation_refuted.
