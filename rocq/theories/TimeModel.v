(** * The getters of times

    The reading of an object as a time is a function of holistic_common
    ([common.GetTime], [common.GetTimeWithDecimalPlaces], [common.GetTimeZero]), which is
    not part of /repo.  It is the parameter [timelib]; the code around it is modelled. *)
From Coq Require Import Ascii String List NArith ZArith Bool.
From Verif Require Import GoStr GoNum GoFloat Heap Common ValueModel ArrayModel MapModel.
Import ListNotations.

(** What the library sees of an object: its type, the scalar it is or points to and the
    time it is or points to.  Simplification: of maps, arrays, lists and the like it
    sees the type only. *)
Record time_arg := TimeArg { ta_type : gtype; ta_scalar : option scalar; ta_time : option nat }.
Record timelib := TimeLib {
  t_get : time_arg -> res (gres (option nat));             (* common.GetTime *)
  t_places : Z -> time_arg -> res (gres (option nat));     (* common.GetTimeWithDecimalPlaces *)
  t_zero : nat                                             (* common.GetTimeZero *)
}.

Definition time_of (i : iface) : option nat :=
  match i with ITime o => o | ITimeV t => Some t | _ => None end.
Definition time_arg_of (h : heap) (i : iface) : res time_arg :=
  s <-r match i with IPtr _ None => Ok None | _ => deref h i end ;;
  Ok (TimeArg (static_type i) s (time_of i)).

(** GetTimeWithDecimalPlaces, Value.go:1357-1363, and GetTime, Value.go:1364-1370. *)
Definition value_time (read : time_arg -> res (gres (option nat))) (X : ext) (h : heap) (v : loc)
  : res (gres (option nat)) :=
  i <-r rd_val h v ;;
  if iface_IsNil X i then Ok (GVal None)
  else a <-r time_arg_of h i ;; read a.
Definition value_GetTime (L : timelib) := value_time (t_get L).
Definition value_GetTimeWithDecimalPlaces (L : timelib) (places : Z) := value_time (t_places L places).

(** GetTimeValue, Value.go:1371-1379: no test for nil, and the zero time without an error
    when the library returns neither a time nor errors. *)
Definition value_GetTimeValue (L : timelib) (h : heap) (v : loc) : res (gres nat) :=
  i <-r rd_val h v ;;
  a <-r time_arg_of h i ;;
  r <-r t_get L a ;;
  Ok (match r with
      | GErr e => GErr e
      | GVal None => GVal (t_zero L)
      | GVal (Some t) => GVal t
      end).

(** Map: GetTime, Map.go:1090-1095; GetTimeWithDecimalPlaces, Map.go:1096-1101. *)
Definition map_GetTime (L : timelib) (X : ext) (h : heap) (m : loc) (k : str) :=
  map_via (GVal None) (value_GetTime L X h) h m k.
Definition map_GetTimeWithDecimalPlaces (L : timelib) (places : Z) (X : ext) (h : heap) (m : loc) (k : str) :=
  map_via (GVal None) (value_GetTimeWithDecimalPlaces L places X h) h m k.
