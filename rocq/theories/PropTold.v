(** * C81: the texts of the errors of ToJSONString, of the conversions and of Clone *)
From Coq Require Import Ascii String List NArith ZArith Bool Lia.
From Verif Require Import GoStr GoNum GoFloat Heap Common ValueModel ArrayModel MapModel JsonModel GetterModel SpecDict SpecNum SpecWorld
  Inv World Reach SpecDoc SpecRender SpecClone SpecHistory SpecWrite SpecConvert SaysModel SpecSays ToldModel SpecTold ToldFacts ToldTop
  ExampleState ExampleTold.
Import ListNotations.
Local Open Scope nat_scope.

(** ToJSONString of a map and of an array, and the conversion of a Value: one message for
    each value that has no text, in the order of the text. *)
Theorem c81_map : forall E X h F m k,
  reachable X h -> escape_ok X -> holds_obj (view h) F (IMap m) k -> proper_content X k -> ~ panics X k ->
  exists ms n, complains X k ms /\ forall fuel, n <= fuel -> map_ToJSONString_says E X fuel h m true = Ok ms.
Proof. exact (fun E X h F m k => written E X h F KMap m k). Qed.

Theorem c81_array : forall E X h F a k,
  reachable X h -> escape_ok X -> holds_obj (view h) F (IArr a) k -> proper_content X k -> ~ panics X k ->
  exists ms n, complains X k ms /\ forall fuel, n <= fuel -> arr_ToJSONString_says E X fuel h a true = Ok ms.
Proof. exact (fun E X h F a k => written E X h F KArr a k). Qed.

Theorem c81_value : forall E X h F v k,
  reachable X h -> escape_ok X -> holds_value (view h) F (Some v) k -> proper_content X k -> ~ panics X k ->
  exists ms n, complains X k ms /\ forall fuel, n <= fuel -> convert_json_says E X fuel h (IPVal (Some v)) true = Ok ms.
Proof. exact (fun E X h F v k => written E X h F KVal v k). Qed.

(** A content has one list of messages, with one message for each hole in its text. *)
Theorem c81_one : forall X k ms ns t c,
  complains X k ms -> (complains X k ns -> ms = ns) /\ (writes X k t c -> length ms = c).
Proof. exact (fun X k ms ns t c H => conj (complains_fun X k ms ns H) (complains_count X k ms t c H)). Qed.

(** A nil builder. *)
Theorem c81_builder : forall E X fuel h l,
  map_ToJSONString_says E X fuel h l false = Ok [lit "error: *strings.Builder is nil"]
  /\ arr_ToJSONString_says E X fuel h l false = Ok [lit "error: *strings.Builder is nil"]
  /\ convert_json_says E X fuel h (IPVal (Some l)) false = Ok [lit "error: *strings.Builder is nil"].
Proof. exact (fun E X fuel h l => conj eq_refl (conj eq_refl eq_refl)). Qed.

(** A key that common.EscapeString rejects ends the messages with its own. *)
Theorem c81_key : forall E X fuel h m d1 k o d2 mss,
  reachable X h -> w_map (view h) m = Some (d1 ++ (k, o) :: d2) ->
  Forall (fun ko => x_escape X (fst ko) <> None) d1 -> x_escape X k = None ->
  Forall2 (fun ko ms => convert_json_says E X fuel h (IPVal (snd ko)) true = Ok ms) d1 mss ->
  map_ToJSONString_says E X fuel h m true = Ok (concat mss ++ [E k]).
Proof. exact rejected_key. Qed.

(** The conversion to a string. *)
Theorem c81_string : forall X h i,
  reachable X h -> ok_object (view h) i ->
  (forall o s, looked_at (view h) i = Some o -> scalar_of (view h) o = Some s -> proper_scalar (x_is64 X) s) ->
  exists o r, looked_at (view h) i = Some o /\ says X (view h) i r
    /\ convert_string_says X h i = match r with
                                   | Says _ => Ok []
                                   | NoText => Ok [unsupported_type (lit "JSON.ConvertInterfaceValueToStringValue") (go_type X o)]
                                   | Crash => Panic
                                   end.
Proof. exact converted. Qed.

(** Clone. *)
Theorem c81_clone : forall X h F kd l k,
  reachable X h -> content_at h F kd l k ->
  exists n, forall fuel, n <= fuel -> clone_says X fuel h kd l = if crashes X k then Panic else Ok (refusals X (lit "Value") k).
Proof. exact cloned. Qed.

(** There are as many texts as errors, and a panic is a panic. *)
Theorem c81_as_many : forall E X fuel h m a b,
  rmap (@length str) (map_ToJSONString_says E X fuel h m match b with Some _ => true | None => false end)
    = rmap (fun r => length (snd r)) (map_ToJSONString fuel X h m b)
  /\ rmap (@length str) (arr_ToJSONString_says E X fuel h a match b with Some _ => true | None => false end)
    = rmap (fun r => length (snd r)) (arr_ToJSONString fuel X h a b).
Proof. exact written_count. Qed.

Theorem c81_clone_as_many : forall X h F kd l k,
  reachable X h -> content_at h F kd l k ->
  exists n, forall fuel, n <= fuel ->
    rmap (@length str) (clone_says X fuel h kd l)
    = rmap (fun q => match fst q with GVal _ => 0 | GErr e => length e end) (clone fuel X kd l h).
Proof. exact clone_as_many. Qed.

Example c81_ex : forall E J U, J = lit "error: JSON.ConvertInterfaceValueToJSONStringValue: type " -> U = lit " is not supported please implement" ->
  (forall X, reachable X told_state /\ proper_content X told_content)
  /\ escape_ok std_ext /\ ~ panics std_ext told_content
  /\ holds_obj (view told_state) (fun _ => True) (IMap 1) told_content
  /\ map_ToJSONString_says E std_ext 9 told_state 1 true
     = Ok [J ++ lit "chan int" ++ U; J ++ lit "time.Time" ++ U; J ++ lit "*fmt.wrapError" ++ U; J ++ lit "*os.PathError" ++ U]
  /\ map_ToJSONString_says E strict_ext 9 told_state 1 true = Panic
  /\ map_ToJSONString_says E picky_ext 9 told_state 1 true = Ok [J ++ lit "chan int" ++ U; E (lit "l")]
  /\ convert_string_says std_ext told_state (IMap 1)
     = Ok [lit "error: JSON.ConvertInterfaceValueToStringValue: type json.Map" ++ U]
  /\ clone_says strict_ext 9 told_state KMap 1
     = Ok [lit "error: Value.Clone: type chan int" ++ U; lit "Array.Clone map is nil"; lit "error: Value.Clone: type []string" ++ U;
           lit "Value.Clone map is nil"].
Proof.
  intros E J U -> ->. split; [intros X; split; [apply told_reachable|apply told_proper]|]. split; [intros s; reflexivity|].
  split. { intros P. assert (T : x_typed_nil std_ext = true) by reflexivity. clear - P T. induction P; auto; congruence. }
  split; [exact told_held|]. vm_compute. repeat split.
Qed.

Print Assumptions c81_map.
Print Assumptions c81_array.
Print Assumptions c81_value.
Print Assumptions c81_one.
Print Assumptions c81_builder.
Print Assumptions c81_key.
Print Assumptions c81_string.
Print Assumptions c81_clone.
Print Assumptions c81_as_many.
Print Assumptions c81_clone_as_many.
