(** * The methods of Map, Array and Value

    The structs of the library have function-valued fields; the only composite
    literals of these types are in the constructors NewMapOfValues, NewArrayOfValues
    and NewValue, and no statement assigns to a field.  A field that the literal does
    not mention is nil, and calling it panics.  Each entry gives the name and the line
    of the field or of its initialiser. *)
From Coq Require Import String List NArith.
Import ListNotations.
Local Open Scope string_scope.
Local Open Scope N_scope.

Definition entry := (string * N)%type.

(** type Map struct, Map.go:10-160. *)
Definition map_fields : list entry :=
  [
    ("GetKeys", 11); ("HasKey", 12); ("GetMap", 13); ("GetMapValue", 14); ("Values", 15);
    ("SetMap", 16); ("SetMapValue", 17); ("SetValue", 18); ("GetValue", 19); ("Clone", 23);
    ("RemoveKey", 26); ("IsNil", 28); ("IsNull", 29); ("IsBool", 30); ("IsEmptyString", 32);
    ("IsInteger", 33); ("IsInt", 34); ("IsInt8", 35); ("IsInt16", 36); ("IsInt32", 37);
    ("IsInt64", 38); ("IsUInt", 39); ("IsUInt8", 40); ("IsUInt16", 41); ("IsUInt32", 42);
    ("IsUInt64", 43); ("IsString", 44); ("IsMap", 45); ("IsBoolTrue", 46); ("IsBoolFalse", 47);
    ("ToJSONString", 48); ("SetErrors", 50); ("GetErrors", 51); ("GetType", 52); ("GetFunc", 53);
    ("SetFunc", 54); ("SetStringValue", 57); ("SetString", 58); ("GetString", 59);
    ("GetStringValue", 60); ("SetBoolValue", 62); ("SetBool", 63); ("GetBool", 64);
    ("GetBoolValue", 65); ("SetNil", 67); ("IsFloat", 69); ("IsFloat32", 70); ("IsFloat64", 71);
    ("SetFloat32Value", 72); ("SetFloat32", 73); ("GetFloat32", 74); ("GetFloat32Value", 75);
    ("SetFloat64Value", 76); ("SetFloat64", 77); ("GetFloat64", 78); ("GetFloat64Value", 79);
    ("GetIntValue", 81); ("SetIntValue", 82); ("SetInt", 83); ("GetInt", 84); ("GetInt8Value", 85);
    ("SetInt8Value", 86); ("SetInt8", 87); ("GetInt8", 88); ("GetInt16Value", 89);
    ("SetInt16Value", 90); ("SetInt16", 91); ("GetInt16", 92); ("GetInt32Value", 93);
    ("SetInt32Value", 94); ("SetInt32", 95); ("GetInt32", 96); ("GetInt64Value", 97);
    ("SetInt64Value", 98); ("SetInt64", 99); ("GetInt64", 100); ("GetUIntValue", 102);
    ("SetUIntValue", 103); ("SetUInt", 104); ("GetUInt", 105); ("GetUInt8Value", 106);
    ("SetUInt8Value", 107); ("SetUInt8", 108); ("GetUInt8", 109); ("GetUInt16Value", 110);
    ("SetUInt16Value", 111); ("SetUInt16", 112); ("GetUInt16", 113); ("GetUInt32Value", 114);
    ("SetUInt32Value", 115); ("SetUInt32", 116); ("GetUInt32", 117); ("GetUInt64Value", 118);
    ("SetUInt64Value", 119); ("SetUInt64", 120); ("GetUInt64", 121); ("IsArray", 123);
    ("SetArray", 124); ("SetArrayValue", 125); ("GetArray", 127); ("GetArrayValue", 128);
    ("GetArrayOfInt", 129); ("GetArrayOfInt8", 130); ("GetArrayOfInt16", 131);
    ("GetArrayOfInt32", 132); ("GetArrayOfInt64", 133); ("GetArrayOfUInt", 135);
    ("GetArrayOfUInt8", 136); ("GetArrayOfUInt16", 137); ("GetArrayOfUInt32", 138);
    ("GetArrayOfUInt64", 139); ("GetArrayOfFloat32", 141); ("GetArrayOfFloat32Value", 142);
    ("GetArrayOfFloat64", 143); ("GetArrayOfFloat64Value", 144); ("GetArrayOfBool", 146);
    ("GetArrayOfBoolValue", 147); ("GetArrayOfString", 149); ("GetRunes", 151);
    ("GetObjectForMap", 153); ("SetObjectForMap", 154); ("SetTime", 156); ("GetTime", 157);
    ("GetTimeWithDecimalPlaces", 158) ].

(** The literal in NewMapOfValues, Map.go:437-1108. *)
Definition map_set : list entry :=
  [
    ("GetMap", 437); ("GetMapValue", 440); ("GetValue", 443); ("SetMap", 446); ("SetMapValue", 450);
    ("IsNull", 454); ("IsNil", 457); ("IsBool", 470); ("IsArray", 476); ("IsEmptyString", 479);
    ("IsInteger", 485); ("IsInt", 491); ("IsInt8", 497); ("IsInt16", 503); ("IsInt32", 509);
    ("IsInt64", 515); ("IsUInt", 521); ("IsUInt8", 527); ("IsUInt16", 533); ("IsUInt32", 539);
    ("IsUInt64", 545); ("IsString", 551); ("IsMap", 557); ("IsBoolTrue", 560); ("IsBoolFalse", 566);
    ("ToJSONString", 572); ("GetKeys", 575); ("SetArray", 578); ("SetArrayValue", 582);
    ("SetErrors", 586); ("GetErrors", 590); ("GetType", 596); ("GetFunc", 602); ("SetFunc", 608);
    ("GetArray", 612); ("GetArrayValue", 615); ("GetArrayOfInt8", 618); ("GetArrayOfInt16", 627);
    ("GetArrayOfInt32", 636); ("GetArrayOfInt64", 645); ("GetArrayOfUInt8", 654);
    ("GetArrayOfUInt16", 663); ("GetArrayOfUInt32", 672); ("GetArrayOfUInt64", 681);
    ("GetArrayOfFloat32", 690); ("GetArrayOfFloat32Value", 699); ("GetArrayOfFloat64", 706);
    ("GetArrayOfFloat64Value", 715); ("GetArrayOfString", 722); ("GetArrayOfBool", 731);
    ("GetArrayOfBoolValue", 740); ("GetString", 749); ("IsFloat", 755); ("IsFloat32", 761);
    ("IsFloat64", 767); ("GetStringValue", 773); ("GetFloat32", 781); ("GetFloat32Value", 787);
    ("GetFloat64Value", 795); ("GetFloat64", 803); ("GetRunes", 809); ("GetObjectForMap", 815);
    ("SetObjectForMap", 821); ("GetBool", 825); ("SetBool", 831); ("SetBoolValue", 835);
    ("SetString", 839); ("SetStringValue", 843); ("SetNil", 847); ("HasKey", 851);
    ("RemoveKey", 854); ("GetInt64", 863); ("GetInt8", 869); ("GetInt8Value", 875);
    ("GetUInt8", 883); ("GetUInt8Value", 889); ("GetInt16", 897); ("GetInt16Value", 903);
    ("GetUInt16", 911); ("GetUInt16Value", 917); ("GetInt32", 925); ("GetInt32Value", 931);
    ("GetInt64Value", 939); ("GetUInt32", 947); ("GetUInt32Value", 953); ("GetUInt64Value", 961);
    ("GetInt", 969); ("GetIntValue", 976); ("SetInt", 984); ("SetInt64", 988); ("SetInt32", 992);
    ("SetInt16", 996); ("SetInt8", 1000); ("SetIntValue", 1004); ("SetInt64Value", 1008);
    ("SetInt32Value", 1012); ("SetInt16Value", 1016); ("SetInt8Value", 1020); ("SetUInt", 1024);
    ("SetUInt64", 1028); ("SetUInt32", 1032); ("SetUInt16", 1036); ("SetUInt8", 1040);
    ("SetUIntValue", 1044); ("SetUInt64Value", 1048); ("SetUInt32Value", 1052);
    ("SetUInt16Value", 1056); ("SetUInt8Value", 1060); ("SetFloat64", 1064);
    ("SetFloat64Value", 1068); ("SetFloat32", 1072); ("SetFloat32Value", 1076); ("GetUInt64", 1080);
    ("SetTime", 1086); ("GetTime", 1090); ("GetTimeWithDecimalPlaces", 1096); ("Values", 1102);
    ("Clone", 1105); ("SetValue", 1108) ].

(** type Array struct, Array.go:9-82. *)
Definition array_fields : list entry :=
  [
    ("ToJSONString", 10); ("AppendString", 11); ("AppendStringValue", 12); ("AppendUInt", 13);
    ("AppendUIntValue", 14); ("AppendUInt8", 15); ("AppendUInt8Value", 16); ("AppendUInt16", 17);
    ("AppendUInt16Value", 18); ("AppendUInt32", 19); ("AppendUInt32Value", 20);
    ("AppendUInt64", 21); ("AppendUInt64Value", 22); ("AppendInt", 23); ("AppendIntValue", 24);
    ("AppendInt8", 25); ("AppendInt8Value", 26); ("AppendInt16", 27); ("AppendInt16Value", 28);
    ("AppendInt32", 29); ("AppendInt32Value", 30); ("AppendInt64", 31); ("AppendInt64Value", 32);
    ("AppendFloat32", 33); ("AppendFloat32Value", 34); ("AppendFloat64", 35);
    ("AppendFloat64Value", 36); ("AppendBool", 37); ("AppendBoolValue", 38); ("AppendNil", 39);
    ("AppendValue", 40); ("AppendValueValue", 41); ("AppendMap", 42); ("AppendMapValue", 43);
    ("AppendArray", 44); ("AppendArrayValue", 45); ("GetStringValue", 46); ("GetMap", 47);
    ("GetArrayValue", 48); ("GetArrayOfInt", 49); ("GetArrayOfInt8", 50); ("GetArrayOfInt16", 51);
    ("GetArrayOfInt32", 52); ("GetArrayOfInt64", 53); ("GetArrayOfUInt", 54);
    ("GetArrayOfUInt8", 55); ("GetArrayOfUInt16", 56); ("GetArrayOfUInt32", 57);
    ("GetArrayOfUInt64", 58); ("GetArrayOfIntValue", 59); ("GetArrayOfInt8Value", 60);
    ("GetArrayOfInt16Value", 61); ("GetArrayOfInt32Value", 62); ("GetArrayOfInt64Value", 63);
    ("GetArrayOfUIntValue", 64); ("GetArrayOfUInt8Value", 65); ("GetArrayOfUInt16Value", 66);
    ("GetArrayOfUInt32Value", 67); ("GetArrayOfUInt64Value", 68); ("GetArrayOfString", 69);
    ("GetArrayOfStringValue", 70); ("GetArrayOfFloat32", 71); ("GetArrayOfFloat32Value", 72);
    ("GetArrayOfFloat64", 73); ("GetArrayOfFloat64Value", 74); ("GetArrayOfBool", 75);
    ("GetArrayOfBoolValue", 76); ("GetValues", 77); ("SetValueAtIndex", 78);
    ("RemoveValueAtIndex", 79); ("Clone", 80); ("Len", 81) ].

(** The literal in NewArrayOfValues, Array.go:182-1103. *)
Definition array_set : list entry :=
  [
    ("Clone", 182); ("Len", 185); ("SetValueAtIndex", 188); ("RemoveValueAtIndex", 200);
    ("ToJSONString", 212); ("AppendString", 247); ("AppendStringValue", 252); ("AppendUInt", 257);
    ("AppendUIntValue", 262); ("AppendUInt8", 267); ("AppendUInt8Value", 272);
    ("AppendUInt16", 277); ("AppendUInt16Value", 282); ("AppendUInt32", 287);
    ("AppendUInt32Value", 292); ("AppendUInt64", 297); ("AppendUInt64Value", 302);
    ("AppendInt", 307); ("AppendIntValue", 312); ("AppendInt8", 317); ("AppendInt8Value", 322);
    ("AppendInt16", 327); ("AppendInt16Value", 332); ("AppendInt32", 337);
    ("AppendInt32Value", 342); ("AppendInt64", 347); ("AppendInt64Value", 352);
    ("AppendFloat32", 357); ("AppendFloat32Value", 362); ("AppendFloat64", 367);
    ("AppendFloat64Value", 372); ("AppendBool", 377); ("AppendBoolValue", 382); ("AppendNil", 387);
    ("AppendMap", 392); ("AppendMapValue", 397); ("AppendArray", 402); ("AppendArrayValue", 407);
    ("AppendValue", 412); ("AppendValueValue", 416); ("GetValues", 420); ("GetStringValue", 426);
    ("GetMap", 453); ("GetArrayOfInt8", 479); ("GetArrayOfInt16", 506); ("GetArrayOfInt32", 533);
    ("GetArrayOfInt64", 560); ("GetArrayOfUInt8", 587); ("GetArrayOfUInt16", 614);
    ("GetArrayOfUInt32", 641); ("GetArrayOfUInt64", 668); ("GetArrayOfInt8Value", 695);
    ("GetArrayOfInt16Value", 722); ("GetArrayOfInt32Value", 749); ("GetArrayOfInt64Value", 776);
    ("GetArrayOfUInt8Value", 803); ("GetArrayOfUInt16Value", 830); ("GetArrayOfUInt32Value", 857);
    ("GetArrayOfUInt64Value", 884); ("GetArrayOfBool", 911); ("GetArrayOfBoolValue", 938);
    ("GetArrayOfString", 965); ("GetArrayOfStringValue", 992); ("GetArrayOfFloat32", 1019);
    ("GetArrayOfFloat32Value", 1046); ("GetArrayOfFloat64", 1076); ("GetArrayOfFloat64Value", 1103) ].

(** type Value struct, Value.go:13-128. *)
Definition value_fields : list entry :=
  [
    ("GetMap", 15); ("SetMap", 16); ("SetMapValue", 17); ("GetMapValue", 18); ("IsMap", 19);
    ("IsEmptyString", 20); ("GetFunc", 21); ("GetErrors", 22); ("SetErrors", 23);
    ("SetErrorsValue", 24); ("SetError", 25); ("SetErrorValue", 26); ("GetArray", 27);
    ("GetArrayValue", 28); ("SetArray", 29); ("SetArrayValue", 30); ("GetBool", 33);
    ("GetBoolValue", 34); ("SetBool", 35); ("SetBoolValue", 36); ("IsArray", 37); ("GetType", 38);
    ("GetObject", 39); ("SetObject", 40); ("IsString", 42); ("IsValueEqualToStringValue", 43);
    ("IsValueEqualToString", 44); ("GetStringValue", 45); ("GetString", 46); ("SetStringValue", 47);
    ("SetString", 48); ("IsNumber", 50); ("IsFloat", 51); ("IsFloat32", 52); ("IsFloat64", 53);
    ("IsBool", 54); ("IsBoolTrue", 55); ("IsBoolFalse", 56); ("IsInteger", 57); ("IsInt", 58);
    ("IsInt8", 59); ("IsInt16", 60); ("IsInt32", 61); ("IsInt64", 62); ("IsUInt", 63);
    ("IsUInt8", 64); ("IsUInt16", 65); ("IsUInt32", 66); ("IsUInt64", 67); ("SetNil", 69);
    ("GetFloat32", 70); ("GetFloat32Value", 71); ("SetFloat32", 72); ("SetFloat32Value", 73);
    ("GetFloat64", 74); ("GetFloat64Value", 75); ("SetFloat64", 76); ("SetFloat64Value", 77);
    ("GetInt", 78); ("GetIntValue", 79); ("GetInt8", 80); ("GetInt8Value", 81); ("GetInt16", 82);
    ("GetInt16Value", 83); ("GetInt32", 84); ("GetInt32Value", 85); ("GetInt64", 86);
    ("GetInt64Value", 87); ("GetUInt", 88); ("GetUIntValue", 89); ("GetUInt8", 90);
    ("GetUInt8Value", 91); ("GetUInt16", 92); ("GetUInt16Value", 93); ("GetUInt32", 94);
    ("GetUInt32Value", 95); ("GetUInt64", 96); ("GetUInt64Value", 97); ("SetInt", 99);
    ("SetIntValue", 100); ("SetInt8", 101); ("SetInt8Value", 102); ("SetInt16", 103);
    ("SetInt16Value", 104); ("SetInt32", 105); ("SetInt32Value", 106); ("SetInt64", 107);
    ("SetInt64Value", 108); ("SetUInt", 109); ("SetUIntValue", 110); ("SetUInt8", 111);
    ("SetUInt8Value", 112); ("SetUInt16", 113); ("SetUInt16Value", 114); ("SetUInt32", 115);
    ("SetUInt32Value", 116); ("SetUInt64", 117); ("SetUInt64Value", 118); ("GetRunes", 120);
    ("GetTimeWithDecimalPlaces", 121); ("GetTime", 122); ("GetTimeValue", 123); ("SetTime", 124);
    ("SetTimeValue", 125); ("IsNil", 126); ("Clone", 127) ].

(** The literal in NewValue, Value.go:365-1848. *)
Definition value_set : list entry :=
  [
    ("SetMap", 365); ("SetMapValue", 368); ("SetArray", 371); ("SetArrayValue", 374);
    ("IsMap", 377); ("IsEmptyString", 380); ("GetMap", 398); ("GetMapValue", 418); ("GetFunc", 438);
    ("GetErrors", 461); ("GetArray", 515); ("GetArrayValue", 540); ("GetString", 552);
    ("SetString", 577); ("SetStringValue", 580); ("GetStringValue", 583); ("IsFloat", 598);
    ("IsFloat32", 601); ("IsFloat64", 604); ("IsNumber", 607); ("IsString", 610);
    ("IsValueEqualToString", 613); ("IsValueEqualToStringValue", 632); ("IsNil", 651);
    ("IsBool", 665); ("IsArray", 668); ("GetFloat64", 671); ("SetFloat64", 796);
    ("SetFloat64Value", 799); ("GetFloat32", 802); ("GetFloat32Value", 827); ("SetFloat32", 852);
    ("SetFloat32Value", 855); ("SetError", 858); ("SetErrorValue", 861); ("SetErrors", 864);
    ("SetErrorsValue", 867); ("GetFloat64Value", 870); ("GetRunes", 885); ("SetBool", 920);
    ("SetBoolValue", 923); ("GetBool", 926); ("GetBoolValue", 976); ("SetNil", 1022);
    ("GetInt64", 1025); ("SetInt64", 1156); ("SetInt64Value", 1159); ("SetInt32", 1162);
    ("SetInt32Value", 1165); ("SetInt16", 1168); ("SetInt16Value", 1171); ("SetInt8", 1174);
    ("SetInt8Value", 1177); ("SetInt", 1180); ("SetIntValue", 1183); ("SetUInt64", 1186);
    ("SetUInt64Value", 1189); ("SetUInt32", 1192); ("SetUInt32Value", 1195); ("SetUInt16", 1198);
    ("SetUInt16Value", 1201); ("SetUInt8", 1204); ("SetUInt8Value", 1207); ("SetUInt", 1210);
    ("SetUIntValue", 1213); ("GetUInt64", 1216); ("GetTimeWithDecimalPlaces", 1357);
    ("GetTime", 1364); ("GetTimeValue", 1371); ("SetTime", 1380); ("SetTimeValue", 1383);
    ("GetType", 1386); ("IsInteger", 1389); ("IsInt", 1392); ("IsInt8", 1395); ("IsInt16", 1398);
    ("IsInt32", 1401); ("IsInt64", 1404); ("IsUInt", 1407); ("IsUInt8", 1410); ("IsUInt16", 1413);
    ("IsUInt32", 1416); ("IsUInt64", 1419); ("IsBoolTrue", 1422); ("IsBoolFalse", 1425);
    ("GetInt8", 1428); ("GetInt8Value", 1458); ("GetUInt8", 1484); ("GetUInt8Value", 1510);
    ("GetInt16", 1536); ("GetInt16Value", 1562); ("GetUInt16", 1588); ("GetUInt16Value", 1614);
    ("GetInt32", 1640); ("GetInt32Value", 1670); ("GetInt64Value", 1696); ("GetUInt32", 1714);
    ("GetUInt32Value", 1740); ("GetUInt64Value", 1766); ("GetInt", 1792); ("GetIntValue", 1824);
    ("SetObject", 1842); ("GetObject", 1845); ("Clone", 1848) ].

(** The fields a constructor leaves nil. *)
Definition set_in (tbl : list entry) (n : string) : bool := existsb (fun e => String.eqb (fst e) n) tbl.
Definition left_nil (fields tbl : list entry) : list string :=
  filter (fun n => negb (set_in tbl n)) (map fst fields).
