(** * C86: programs that read the texts of errors *)
From Coq Require Import Ascii String List NArith ZArith Bool Lia.
From Verif Require Import GoStr GoNum GoFloat Heap Common ParserModel JsonModel TimeModel SpecDict SpecWorld Inv World Reach
  SpecAlike ClientModel AlikeRead AlikeTop ExampleState ExampleAlike ValueModel GetterModel SaysModel TextModel TextFacts TextCount.
Import ListNotations.

(** C77 for programs that also see the texts of all errors and choose their calls by them. *)
Theorem c86_same : forall Q E T X L h h' p t t' n (c : listener),
  prints_no_address X -> reachable X h -> reachable X h' ->
  alike p (view h) (view h') -> Forall2 (fun a b => In (a, b) p) t t' ->
  fst (listen Q E T X L n c [] t h) = fst (listen Q E T X L n c [] t' h').
Proof. intros Q E T X L h h' p t t' n c NA. exact (listen_alike Q E T X L NA h h' p t t' n c). Qed.

(** A program that is given nothing reads the same in every state. *)
Theorem c86_start : forall Q E T X L h h' n (c : listener),
  prints_no_address X -> reachable X h -> reachable X h' ->
  fst (listen Q E T X L n c [] [] h) = fst (listen Q E T X L n c [] [] h').
Proof. intros Q E T X L h h' n c NA. exact (listen_start Q E T X L NA h h' n c). Qed.

(** No text tells what another program did with objects of its own. *)
Theorem c86_separate : forall Q E T X L h S1 S2 t1 t2 n (c : listener) m (d : listener),
  prints_no_address X -> reachable X h ->
  self_contained (view h) S1 -> self_contained (view h) S2 -> (forall a, In a S1 -> In a S2 -> False) ->
  incl t1 S1 -> incl t2 S2 ->
  fst (listen Q E T X L m d [] t2 (snd (listen Q E T X L n c [] t1 h))) = fst (listen Q E T X L m d [] t2 h).
Proof. exact listen_separate. Qed.

(** Every call that returns has a text for each of its errors, if the time library has one for each
    of its own: the texts never end a program that would otherwise go on.  (Clone: C81.) *)
Theorem c86_count : forall Q E T X L h q r h',
  (forall p a e, time_reader L p a = Ok (GErr e) -> length (T p a) = length e) ->
  reachable X h -> ask X L q h = Ok (r, h') -> (forall n k l, q <> QClone n k l) ->
  exists ms, texts_of Q E T X L q h = Ok ms /\ length ms = errors_in (fst r).
Proof. intros Q E T X L h q r h' Tn R. exact (texts_count Q E T X L Tn h R q r h'). Qed.

(** It asks for a number at the key of the array, for the element behind its end, and parses the
    text of the first error. *)
Definition said (s : heard) : str := match s with Ok (_, _, m :: _) :: _ => m | _ => [] end.
Definition reader : listener := fun s =>
  nth_error [ClientModel.QMap (GInt KInt64) 0 (lit "a"); QElemStr 1 3; QApi (AMapRemoveKey 0 (lit "x")); QParse (said s)] (length s).

Example c86_ex : forall Q E T L,
  prints_no_address std_ext /\ reachable std_ext detour /\ reachable std_ext direct
  /\ alike detour_direct (view detour) (view direct) /\ Forall2 (fun a b => In (a, b) detour_direct) [1; 4] [3; 1]
  /\ map (fun r => match r with Ok (_, _, ms) => ms | _ => [] end) (fst (listen Q E T std_ext L 9 reader [] [1; 4] detour))
     = [[lit "error: Map.GetInt64: type *json.Array is not supported please implement"];
        [lit "Array.GetStringValue index is out of range"]; [lit "key not found in map"];
        [lit "error: json does not start with {"; lit "error: json does not end with }"]]
  /\ fst (listen Q E T std_ext L 9 reader [] [3; 1] direct) = fst (listen Q E T std_ext L 9 reader [] [1; 4] detour).
Proof.
  intros Q E T L. split; [apply std_prints_no_address|]. split; [apply detour_reachable|]. split; [apply direct_reachable|].
  split; [apply detour_alike|]. split; [constructor; [cbn; auto|constructor; [cbn; auto|constructor]]|].
  split; vm_compute; reflexivity.
Qed.

(** Two maps, one of which holds itself; the first is changed between. *)
Example c86_separate_ex : forall Q E T L,
  reachable std_ext two_maps
  /\ self_contained (view two_maps) [1; 2] /\ self_contained (view two_maps) [4; 5]
  /\ (forall a, In a [1; 2] -> In a [4; 5] -> False)
  /\ snd (listen Q E T std_ext L 1 (fun _ => Some (QApi (AMapRemoveKey 0 (lit "a")))) [] [1] two_maps) <> two_maps
  /\ fst (listen Q E T std_ext L 1 (fun _ => Some (QApi (AMapRemoveKey 0 (lit "a")))) [] [4] two_maps)
     = [Ok (FOut (OFlag false true), [], [lit "key not found in map"])].
Proof.
  intros Q E T L. split; [apply two_maps_reachable|]. split; [apply two_maps_first|]. split; [apply two_maps_second|].
  split; [cbn; lia|]. split; [vm_compute; discriminate|vm_compute; reflexivity].
Qed.

(** Two errors, for a time library with one text for each error. *)
Example c86_count_ex : forall Q E L,
  let T p a := match time_reader L p a with Ok (GErr e) => map (fun _ => lit "bad time") e | _ => [] end in
  (forall p a e, time_reader L p a = Ok (GErr e) -> length (T p a) = length e)
  /\ reachable std_ext detour
  /\ exists r h', ask std_ext L (QParse (lit "1")) detour = Ok (r, h') /\ errors_in (fst r) = 2
     /\ texts_of Q E T std_ext L (QParse (lit "1")) detour
        = Ok [lit "error: json does not start with {"; lit "error: json does not end with }"].
Proof.
  intros Q E L T. split; [intros p a e H; unfold T; rewrite H; apply map_length|]. split; [apply detour_reachable|].
  eexists. eexists. split; [vm_compute; reflexivity|]. split; vm_compute; reflexivity.
Qed.

Print Assumptions c86_same.
Print Assumptions c86_start.
Print Assumptions c86_separate.
Print Assumptions c86_count.
