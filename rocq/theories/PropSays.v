(** * C80: the texts of the getters' errors *)
From Coq Require Import Ascii String List NArith ZArith Bool Lia.
From Verif Require Import GoStr GoNum GoFloat Heap Common ValueModel ArrayModel MapModel RunesModel GetterModel SpecDict SpecNum SpecWorld
  Inv World Reach SaysModel SpecSays SaysTop ExampleSays.
Import ListNotations.
Local Open Scope Z_scope.

(** Every getter of a Value: its messages are those of the object it holds. *)
Theorem c80_value : forall Q X h g v i ms,
  reachable X h -> nth_error h v = Some (CVal i) -> typed_ints X h i ->
  value_says Q X h g v = Ok ms <-> texts Q X h g i ms.
Proof. exact value_texts. Qed.

(** Every getter of a map. *)
Theorem c80_map : forall Q X h g m k ms,
  reachable X h -> has (w_map (view h)) m ->
  (forall i, object_at (view h) m k = Some i -> typed_ints X h i) ->
  map_says Q X h g m k = Ok ms <-> map_texts Q X h (view h) g m k ms.
Proof. exact map_texts_iff. Qed.

(** The messages do not tell keys apart: they are the same wherever the object is. *)
Theorem c80_key : forall Q X h g m k m' k' ms,
  reachable X h -> has (w_map (view h)) m -> has (w_map (view h)) m' ->
  (forall i, object_at (view h) m k = Some i -> typed_ints X h i) ->
  object_at (view h) m k = object_at (view h) m' k' ->
  map_says Q X h g m k = Ok ms -> map_says Q X h g m' k' = Ok ms.
Proof. exact key_blind. Qed.

(** The getters of arrays: all elements, and one element. *)
Theorem c80_array : forall Q X h g null a l ms,
  reachable X h -> array_getter g null -> nth_error h a = Some (CArr l) ->
  (forall v i, In (Some v) l -> nth_error h v = Some (CVal i) -> typed_ints X h i) ->
  array_of_says Q X h g a = Ok ms <-> list_texts Q X h null g l ms.
Proof. exact array_texts. Qed.

Theorem c80_map_array : forall Q X h g null nil m k ms,
  reachable X h -> map_list_getter g null nil -> has (w_map (view h)) m ->
  (forall v i, nth_error h v = Some (CVal i) -> typed_ints X h i) ->
  map_list_says Q X h g m k = Ok ms <-> map_list_texts Q X h (view h) g null nil m k ms.
Proof. exact map_array_texts. Qed.

Theorem c80_element : forall Q X h a l n ms,
  reachable X h -> nth_error h a = Some (CArr l) ->
  (arr_string_says X h a n = Ok ms <-> element_texts Q X h QStrV [] l n ms)
  /\ (arr_map_says X h a n = Ok ms <-> element_texts Q X h QMap [lit "Array.GetStringValue value is nil"] l n ms).
Proof. exact element_texts_iff. Qed.

(** The changes that can fail. *)
Theorem c80_changes : forall X h a l m k n ms,
  reachable X h -> nth_error h a = Some (CArr l) -> has (w_map (view h)) m ->
  (at_index_says h a n = Ok ms <-> index_texts l n ms)
  /\ (remove_key_says h m k = Ok ms <-> remove_texts (map_at (view h) m) k ms).
Proof. exact change_texts. Qed.

(** There are as many texts as errors, and a panic is a panic. *)
Theorem c80_as_many : forall Q X h g v i m k a l n o,
  reachable X h -> nth_error h v = Some (CVal i) -> has (w_map (view h)) m -> nth_error h a = Some (CArr l) ->
  rmap (@length str) (value_says Q X h g v) = rmap (@length err) (value_errs X h g v)
  /\ rmap (@length str) (map_says Q X h g m k) = rmap (@length err) (map_errs X h g m k)
  /\ rmap (@length str) (array_of_says Q X h g a) = rmap (@length err) (array_of_errs X h g a)
  /\ rmap (@length str) (map_list_says Q X h g m k) = rmap (@length err) (map_list_errs X h g m k)
  /\ rmap (@length str) (arr_string_says X h a n) = rmap (@length err) (rmap errs_of (arr_GetStringValue X h a n))
  /\ rmap (@length str) (arr_map_says X h a n) = rmap (@length err) (rmap errs_of (arr_GetMap X h a n))
  /\ (exists e h', arr_SetValueAtIndex a n o h = Ok (e, h') /\ (e = None <-> at_index_says h a n = Ok []))
  /\ (exists e h', arr_RemoveValueAtIndex a n h = Ok (e, h') /\ (e = None <-> at_index_says h a n = Ok []))
  /\ (exists b e h', map_RemoveKey m k h = Ok ((b, e), h') /\ (e = None <-> remove_key_says h m k = Ok [])).
Proof. exact as_many. Qed.

Example c80_ex : forall T, T = map_texts quoted std_ext asked_state (view asked_state) ->
  (forall X, reachable X asked_state) /\ has (w_map (view asked_state)) 1
  /\ (forall v i, nth_error asked_state v = Some (CVal i) -> typed_ints std_ext asked_state i)
  /\ T (QInt KInt64) 1%nat (lit "u") [lit "18446744073709551615 is greater than 9223372036854775807"]
  /\ T (QIntV KInt8) 1%nat (lit "n") [lit "error: value is not in range [-128, 127]"]
  /\ T (QInt KUInt16) 1%nat (lit "n") [lit "error: Map.GetUInt64: cannot convert negative numbers for uint64"]
  /\ T (QInt KInt32) 1%nat (lit "v")
       [lit "error: Map.GetInt64: cannot convert json.Value to int64 strconv.ParseInt: parsing ""12x"": invalid syntax"]
  /\ T QBool 1%nat (lit "p") [lit "error: Map.GetBool: unknown value for *string: yes"]
  /\ T (QFlt F32) 1%nat (lit "b") [lit "error: Value.GetFloat64: type bool is not supported please implement for attribute: %!s(MISSING)"]
  /\ T QStrV 1%nat (lit "z") [lit "json.Map.GetStringValue value is nil"]
  /\ T QMapV 1%nat (lit "z") [lit "map is nil"]
  /\ T QMapV 1%nat (lit "nothing") [lit "Map.getMapValue value is nil"]
  /\ array_of_says quoted std_ext asked_state (QIntV KInt8) 10
     = Ok [lit "array contained a null value"; lit "error: value is not in range [-128, 127]";
           lit "error: Map.GetInt64: type json.Map is not supported please implement"; lit "error: m.GetInt64(s) returned nil"]
  /\ map_list_says quoted std_ext asked_state (QInt KInt8) 1 (lit "a")
     = Ok [lit "error: value is not in range [-128, 127]"; lit "error: Map.GetInt64: type json.Map is not supported please implement"]
  /\ map_list_says quoted std_ext asked_state (QFltV F32) 1 (lit "z") = Ok [lit "json.Map.GetArrayValue array is nil"]
  /\ map_list_says quoted std_ext asked_state QBoolV 1 (lit "n") = Ok [lit "error: Value.GetArray: type int is not supported please implement"]
  /\ arr_string_says std_ext asked_state 10 4
     = Ok [lit "Array.GetStringValue has errors: [Value.GetStringValue is nil]"]
  /\ arr_map_says std_ext asked_state 10 4 = Ok [lit "Array.GetStringValue value is nil"]
  /\ at_index_says asked_state 10 (-1) = Ok [lit "index must be non-zero"].
Proof.
  intros T ->. split; [exact asked_reachable|]. split; [exact asked_map|]. split; [exact asked_typed|].
  do 9 (split; [apply asked_says; reflexivity|]). repeat split.
Qed.

Print Assumptions c80_value.
Print Assumptions c80_map.
Print Assumptions c80_key.
Print Assumptions c80_array.
Print Assumptions c80_map_array.
Print Assumptions c80_element.
Print Assumptions c80_changes.
Print Assumptions c80_as_many.
