(** * C60: reading a parsed text *)
From Coq Require Import Ascii String List NArith ZArith Bool.
From Verif Require Import GoStr GoNum GoFloat Heap Common ValueModel ArrayModel MapModel JsonModel ParserModel ReadModel
  SpecDict SpecNum SpecWorld World Reach SpecFloat SpecDoc SpecText SpecToken SpecParse SpecRead ReadFacts ExampleState ExampleText.
Import ListNotations.

(** After a successful Parse, GetKeys lists the keys of the text; going to any position of
    the text with GetValue, GetValues, GetMap and GetArray succeeds and leads to a value
    whose getters answer as the text there demands; a key that an object of the text lacks
    leads to nil. *)
Theorem c60_read : forall X h l m h',
  reachable X h -> members_ok false l -> plain_tokens l ->
  Parse X (text_of (JMap l)) h = Ok (GVal (Some m), h') ->
  map_GetKeys h' m = Ok (first_keys (map fst (member_list l)))
  /\ (forall x p t, text_at (JMap l) (x :: p) = Some t ->
        exists v, go X h' m x p = Ok (GVal (Some v)) /\ answers X h' v t)
  /\ (forall k, last_of k (member_list l) = None -> go X h' m (PKey k) [] = Ok (GVal None))
  /\ (forall x p l' k, text_at (JMap l) (x :: p) = Some (JMap l') -> last_of k (member_list l') = None ->
        go X h' m x (p ++ [PKey k]) = Ok (GVal None)).
Proof. exact read_parsed. Qed.

Example c60_ex :
  reachable std_ext ex_state
  /\ (members_ok false ex_lenient /\ plain_tokens ex_lenient)
  /\ (exists m h', Parse std_ext (text_of (JMap ex_lenient)) ex_state = Ok (GVal (Some m), h'))
  /\ text_at (JMap ex_lenient) [PKey (lit "c"); PIndex 2] = Some (JTok (lit "7"))
  /\ text_at (JMap ex_lenient) [PKey (lit "z"); PKey (lit "k")] = Some (JTok (lit "1"))
  /\ last_of (lit "b") (member_list ex_lenient) = None.
Proof.
  split; [apply ex_reachable|]. split; [exact ex_lenient_ok|].
  split; [|vm_compute; auto].
  destruct ex_lenient_parses as (h' & m & P & _). eauto.
Qed.

Print Assumptions c60_read.
