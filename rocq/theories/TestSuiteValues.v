(** * The tests of the project, on the model: scalars, maps and texts

    Generated from the files of /repo/tests, test by test. *)
From Coq Require Import Ascii String List NArith ZArith Bool.
From Verif Require Import GoStr GoNum GoFloat Heap Common MapModel TestKit TestFacts.
Import ListNotations.
Local Open Scope bool_scope.

(** ** JSON_Bool_test.go *)

(** JSON_Bool_test.go:7-25 *)
Definition TestCanParseBoolTrue (h0 : heap) : bool :=
  ParseJSONSuccessfully h0 (lit "{""key"":true}") (fun h json_obj =>
  HasKey h json_obj (lit "key") &&
  (Is common_IsBool h json_obj (lit "key") &&
  (call (GetBool h json_obj (lit "key")) (fun value value_errors =>
  negb value_errors &&
  (negb (is_nil value) &&
  (val_is value (Some (SBool true)))))))).
Lemma TestCanParseBoolTrue_passes h0 : TestCanParseBoolTrue h0 = true.
Proof. passes TestCanParseBoolTrue. Qed.

(** JSON_Bool_test.go:27-45 *)
Definition TestCanParseBoolFalse (h0 : heap) : bool :=
  ParseJSONSuccessfully h0 (lit "{""key"":false}") (fun h json_obj =>
  HasKey h json_obj (lit "key") &&
  (Is common_IsBool h json_obj (lit "key") &&
  (call (GetBool h json_obj (lit "key")) (fun value value_errors =>
  negb value_errors &&
  (negb (is_nil value) &&
  (val_is value (Some (SBool false)))))))).
Lemma TestCanParseBoolFalse_passes h0 : TestCanParseBoolFalse h0 = true.
Proof. passes TestCanParseBoolFalse. Qed.

(** JSON_Bool_test.go:47-81 *)
Definition TestCanParseMultipleBools (h0 : heap) : bool :=
  ParseJSONSuccessfully h0 (lit "{""key"":true,""key2"":false}") (fun h json_obj =>
  (HasKey h json_obj (lit "key") &&
  (Is common_IsBool h json_obj (lit "key") &&
  (call (GetBool h json_obj (lit "key")) (fun value value_errors =>
  negb value_errors &&
  (negb (is_nil value) &&
  (val_is value (Some (SBool true)))))))) &&
  (HasKey h json_obj (lit "key2") &&
  (Is common_IsBool h json_obj (lit "key2") &&
  (call (GetBool h json_obj (lit "key2")) (fun value value_errors =>
  negb value_errors &&
  (negb (is_nil value) &&
  (val_is value (Some (SBool false))))))))).
Lemma TestCanParseMultipleBools_passes h0 : TestCanParseMultipleBools h0 = true.
Proof. passes TestCanParseMultipleBools. Qed.

(** JSON_Bool_test.go:83-101 *)
Definition TestCanParseBoolSpaceBeforeKey (h0 : heap) : bool :=
  ParseJSONSuccessfully h0 (lit "{ ""key"":true}") (fun h json_obj =>
  HasKey h json_obj (lit "key") &&
  (Is common_IsBool h json_obj (lit "key") &&
  (call (GetBool h json_obj (lit "key")) (fun value value_errors =>
  negb value_errors &&
  (negb (is_nil value) &&
  (val_is value (Some (SBool true)))))))).
Lemma TestCanParseBoolSpaceBeforeKey_passes h0 : TestCanParseBoolSpaceBeforeKey h0 = true.
Proof. passes TestCanParseBoolSpaceBeforeKey. Qed.

(** JSON_Bool_test.go:103-121 *)
Definition TestCanParseBoolNewlineBeforeKey (h0 : heap) : bool :=
  ParseJSONSuccessfully h0 (lit "{" ++ [ascii_of_nat 10] ++ lit """key"":true}") (fun h json_obj =>
  HasKey h json_obj (lit "key") &&
  (Is common_IsBool h json_obj (lit "key") &&
  (call (GetBool h json_obj (lit "key")) (fun value value_errors =>
  negb value_errors &&
  (negb (is_nil value) &&
  (val_is value (Some (SBool true)))))))).
Lemma TestCanParseBoolNewlineBeforeKey_passes h0 : TestCanParseBoolNewlineBeforeKey h0 = true.
Proof. passes TestCanParseBoolNewlineBeforeKey. Qed.

(** JSON_Bool_test.go:123-141 *)
Definition TestCanParseBoolDosNewlineBeforeKey (h0 : heap) : bool :=
  ParseJSONSuccessfully h0 (lit "{" ++ [ascii_of_nat 13] ++ [ascii_of_nat 10] ++ lit """key"":true}") (fun h json_obj =>
  HasKey h json_obj (lit "key") &&
  (Is common_IsBool h json_obj (lit "key") &&
  (call (GetBool h json_obj (lit "key")) (fun value value_errors =>
  negb value_errors &&
  (negb (is_nil value) &&
  (val_is value (Some (SBool true)))))))).
Lemma TestCanParseBoolDosNewlineBeforeKey_passes h0 : TestCanParseBoolDosNewlineBeforeKey h0 = true.
Proof. passes TestCanParseBoolDosNewlineBeforeKey. Qed.

(** JSON_Bool_test.go:143-161 *)
Definition TestCanParseBoolSpaceAfterKey (h0 : heap) : bool :=
  ParseJSONSuccessfully h0 (lit "{""key"" :true}") (fun h json_obj =>
  HasKey h json_obj (lit "key") &&
  (Is common_IsBool h json_obj (lit "key") &&
  (call (GetBool h json_obj (lit "key")) (fun value value_errors =>
  negb value_errors &&
  (negb (is_nil value) &&
  (val_is value (Some (SBool true)))))))).
Lemma TestCanParseBoolSpaceAfterKey_passes h0 : TestCanParseBoolSpaceAfterKey h0 = true.
Proof. passes TestCanParseBoolSpaceAfterKey. Qed.

(** JSON_Bool_test.go:163-181 *)
Definition TestCanParseBoolNewlineAfterKey (h0 : heap) : bool :=
  ParseJSONSuccessfully h0 (lit "{""key""" ++ [ascii_of_nat 10] ++ lit ":true}") (fun h json_obj =>
  HasKey h json_obj (lit "key") &&
  (Is common_IsBool h json_obj (lit "key") &&
  (call (GetBool h json_obj (lit "key")) (fun value value_errors =>
  negb value_errors &&
  (negb (is_nil value) &&
  (val_is value (Some (SBool true)))))))).
Lemma TestCanParseBoolNewlineAfterKey_passes h0 : TestCanParseBoolNewlineAfterKey h0 = true.
Proof. passes TestCanParseBoolNewlineAfterKey. Qed.

(** JSON_Bool_test.go:183-201 *)
Definition TestCanParseBoolDosNewlineAfterKey (h0 : heap) : bool :=
  ParseJSONSuccessfully h0 (lit "{""key""" ++ [ascii_of_nat 13] ++ [ascii_of_nat 10] ++ lit ":true}") (fun h json_obj =>
  HasKey h json_obj (lit "key") &&
  (Is common_IsBool h json_obj (lit "key") &&
  (call (GetBool h json_obj (lit "key")) (fun value value_errors =>
  negb value_errors &&
  (negb (is_nil value) &&
  (val_is value (Some (SBool true)))))))).
Lemma TestCanParseBoolDosNewlineAfterKey_passes h0 : TestCanParseBoolDosNewlineAfterKey h0 = true.
Proof. passes TestCanParseBoolDosNewlineAfterKey. Qed.

(** JSON_Bool_test.go:203-221 *)
Definition TestCanParseBoolSpaceBeforeValue (h0 : heap) : bool :=
  ParseJSONSuccessfully h0 (lit "{""key"": true}") (fun h json_obj =>
  HasKey h json_obj (lit "key") &&
  (Is common_IsBool h json_obj (lit "key") &&
  (call (GetBool h json_obj (lit "key")) (fun value value_errors =>
  negb value_errors &&
  (negb (is_nil value) &&
  (val_is value (Some (SBool true)))))))).
Lemma TestCanParseBoolSpaceBeforeValue_passes h0 : TestCanParseBoolSpaceBeforeValue h0 = true.
Proof. passes TestCanParseBoolSpaceBeforeValue. Qed.

(** JSON_Bool_test.go:223-241 *)
Definition TestCanParseBoolSpaceNewlineBeforeValue (h0 : heap) : bool :=
  ParseJSONSuccessfully h0 (lit "{""key"":" ++ [ascii_of_nat 10] ++ lit "true}") (fun h json_obj =>
  HasKey h json_obj (lit "key") &&
  (Is common_IsBool h json_obj (lit "key") &&
  (call (GetBool h json_obj (lit "key")) (fun value value_errors =>
  negb value_errors &&
  (negb (is_nil value) &&
  (val_is value (Some (SBool true)))))))).
Lemma TestCanParseBoolSpaceNewlineBeforeValue_passes h0 : TestCanParseBoolSpaceNewlineBeforeValue h0 = true.
Proof. passes TestCanParseBoolSpaceNewlineBeforeValue. Qed.

(** JSON_Bool_test.go:243-261 *)
Definition TestCanParseBoolSpaceDosNewlineBeforeValue (h0 : heap) : bool :=
  ParseJSONSuccessfully h0 (lit "{""key"":" ++ [ascii_of_nat 13] ++ [ascii_of_nat 10] ++ lit "true}") (fun h json_obj =>
  HasKey h json_obj (lit "key") &&
  (Is common_IsBool h json_obj (lit "key") &&
  (call (GetBool h json_obj (lit "key")) (fun value value_errors =>
  negb value_errors &&
  (negb (is_nil value) &&
  (val_is value (Some (SBool true)))))))).
Lemma TestCanParseBoolSpaceDosNewlineBeforeValue_passes h0 : TestCanParseBoolSpaceDosNewlineBeforeValue h0 = true.
Proof. passes TestCanParseBoolSpaceDosNewlineBeforeValue. Qed.

(** JSON_Bool_test.go:263-281 *)
Definition TestCanParseBoolSpaceAfterValue (h0 : heap) : bool :=
  ParseJSONSuccessfully h0 (lit "{""key"":true }") (fun h json_obj =>
  HasKey h json_obj (lit "key") &&
  (Is common_IsBool h json_obj (lit "key") &&
  (call (GetBool h json_obj (lit "key")) (fun value value_errors =>
  negb value_errors &&
  (negb (is_nil value) &&
  (val_is value (Some (SBool true)))))))).
Lemma TestCanParseBoolSpaceAfterValue_passes h0 : TestCanParseBoolSpaceAfterValue h0 = true.
Proof. passes TestCanParseBoolSpaceAfterValue. Qed.

(** JSON_Bool_test.go:283-301 *)
Definition TestCanParseBoolNewlineAfterValue (h0 : heap) : bool :=
  ParseJSONSuccessfully h0 (lit "{""key"":true" ++ [ascii_of_nat 10] ++ lit "}") (fun h json_obj =>
  HasKey h json_obj (lit "key") &&
  (Is common_IsBool h json_obj (lit "key") &&
  (call (GetBool h json_obj (lit "key")) (fun value value_errors =>
  negb value_errors &&
  (negb (is_nil value) &&
  (val_is value (Some (SBool true)))))))).
Lemma TestCanParseBoolNewlineAfterValue_passes h0 : TestCanParseBoolNewlineAfterValue h0 = true.
Proof. passes TestCanParseBoolNewlineAfterValue. Qed.

(** JSON_Bool_test.go:303-321 *)
Definition TestCanParseBoolDosNewlineAfterValue (h0 : heap) : bool :=
  ParseJSONSuccessfully h0 (lit "{""key"":true" ++ [ascii_of_nat 13] ++ [ascii_of_nat 10] ++ lit "}") (fun h json_obj =>
  HasKey h json_obj (lit "key") &&
  (Is common_IsBool h json_obj (lit "key") &&
  (call (GetBool h json_obj (lit "key")) (fun value value_errors =>
  negb value_errors &&
  (negb (is_nil value) &&
  (val_is value (Some (SBool true)))))))).
Lemma TestCanParseBoolDosNewlineAfterValue_passes h0 : TestCanParseBoolDosNewlineAfterValue h0 = true.
Proof. passes TestCanParseBoolDosNewlineAfterValue. Qed.

(** ** JSON_Float_32_test.go *)

(** JSON_Float_32_test.go:7-25 *)
Definition TestCanParseFloat32Zero (h0 : heap) : bool :=
  ParseJSONSuccessfully h0 (lit "{""key"":0.0}") (fun h json_obj =>
  HasKey h json_obj (lit "key") &&
  (Is common_IsFloat32 h json_obj (lit "key") &&
  (call (GetFloat32 h json_obj (lit "key")) (fun value value_errors =>
  negb value_errors &&
  (negb (is_nil value) &&
  (val_is value (dec F32 (lit "0")))))))).
Lemma TestCanParseFloat32Zero_passes h0 : TestCanParseFloat32Zero h0 = true.
Proof. passes TestCanParseFloat32Zero. Qed.

(** JSON_Float_32_test.go:27-45 *)
Definition TestCanParseFloat32PositiveLowBoundary (h0 : heap) : bool :=
  ParseJSONSuccessfully h0 (lit "{""key"":0.123457}") (fun h json_obj =>
  HasKey h json_obj (lit "key") &&
  (Is common_IsFloat32 h json_obj (lit "key") &&
  (call (GetFloat32 h json_obj (lit "key")) (fun value value_errors =>
  negb value_errors &&
  (negb (is_nil value) &&
  (val_is value (dec F32 (lit "0.12345699965953826904296875")))))))).
Lemma TestCanParseFloat32PositiveLowBoundary_passes h0 : TestCanParseFloat32PositiveLowBoundary h0 = true.
Proof. passes TestCanParseFloat32PositiveLowBoundary. Qed.

(** JSON_Float_32_test.go:47-65 *)
Definition TestCanParseFloat32NegativeLowBoundary (h0 : heap) : bool :=
  ParseJSONSuccessfully h0 (lit "{""key"":-0.123457}") (fun h json_obj =>
  HasKey h json_obj (lit "key") &&
  (Is common_IsFloat32 h json_obj (lit "key") &&
  (call (GetFloat32 h json_obj (lit "key")) (fun value value_errors =>
  negb value_errors &&
  (negb (is_nil value) &&
  (val_is value (dec F32 (lit "-0.12345699965953826904296875")))))))).
Lemma TestCanParseFloat32NegativeLowBoundary_passes h0 : TestCanParseFloat32NegativeLowBoundary h0 = true.
Proof. passes TestCanParseFloat32NegativeLowBoundary. Qed.

(** JSON_Float_32_test.go:67-101 *)
Definition TestCanParseFloat32MultiplePositiveLowBoundary (h0 : heap) : bool :=
  ParseJSONSuccessfully h0 (lit "{""key"":0.123457,""key2"":0.223457}") (fun h json_obj =>
  (HasKey h json_obj (lit "key") &&
  (Is common_IsFloat32 h json_obj (lit "key") &&
  (call (GetFloat32 h json_obj (lit "key")) (fun value value_errors =>
  negb value_errors &&
  (negb (is_nil value) &&
  (val_is value (dec F32 (lit "0.12345699965953826904296875")))))))) &&
  (HasKey h json_obj (lit "key2") &&
  (Is common_IsFloat32 h json_obj (lit "key2") &&
  (call (GetFloat32 h json_obj (lit "key2")) (fun value value_errors =>
  negb value_errors &&
  (negb (is_nil value) &&
  (val_is value (dec F32 (lit "0.22345699369907379150390625"))))))))).
Lemma TestCanParseFloat32MultiplePositiveLowBoundary_passes h0 : TestCanParseFloat32MultiplePositiveLowBoundary h0 = true.
Proof. passes TestCanParseFloat32MultiplePositiveLowBoundary. Qed.

(** JSON_Float_32_test.go:103-137 *)
Definition TestCanParseFloat32MultipleNegativeLowBoundary (h0 : heap) : bool :=
  ParseJSONSuccessfully h0 (lit "{""key"":-0.123457,""key2"":-0.223457}") (fun h json_obj =>
  (HasKey h json_obj (lit "key") &&
  (Is common_IsFloat32 h json_obj (lit "key") &&
  (call (GetFloat32 h json_obj (lit "key")) (fun value value_errors =>
  negb value_errors &&
  (negb (is_nil value) &&
  (val_is value (dec F32 (lit "-0.12345699965953826904296875")))))))) &&
  (HasKey h json_obj (lit "key2") &&
  (negb (Is common_IsFloat32 h json_obj (lit "ke2")) &&
  (call (GetFloat32 h json_obj (lit "key2")) (fun value value_errors =>
  negb value_errors &&
  (negb (is_nil value) &&
  (val_is value (dec F32 (lit "-0.22345699369907379150390625"))))))))).
Lemma TestCanParseFloat32MultipleNegativeLowBoundary_passes h0 : TestCanParseFloat32MultipleNegativeLowBoundary h0 = true.
Proof. passes TestCanParseFloat32MultipleNegativeLowBoundary. Qed.

(** JSON_Float_32_test.go:139-173 *)
Definition TestCanParseFloat32MultipleLowBoundary (h0 : heap) : bool :=
  ParseJSONSuccessfully h0 (lit "{""key"":0.123457, ""key2"":-0.223457}") (fun h json_obj =>
  (HasKey h json_obj (lit "key") &&
  (Is common_IsFloat32 h json_obj (lit "key") &&
  (call (GetFloat32 h json_obj (lit "key")) (fun value value_errors =>
  negb value_errors &&
  (negb (is_nil value) &&
  (val_is value (dec F32 (lit "0.12345699965953826904296875")))))))) &&
  (HasKey h json_obj (lit "key2") &&
  (Is common_IsFloat32 h json_obj (lit "key2") &&
  (call (GetFloat32 h json_obj (lit "key2")) (fun value value_errors =>
  negb value_errors &&
  (negb (is_nil value) &&
  (val_is value (dec F32 (lit "-0.22345699369907379150390625"))))))))).
Lemma TestCanParseFloat32MultipleLowBoundary_passes h0 : TestCanParseFloat32MultipleLowBoundary h0 = true.
Proof. passes TestCanParseFloat32MultipleLowBoundary. Qed.

(** JSON_Float_32_test.go:175-193 *)
Definition TestCanParseFloat32PositiveHighBoundary (h0 : heap) : bool :=
  ParseJSONSuccessfully h0 (lit "{""key"":340000000000000000000000000000000000000.00}") (fun h json_obj =>
  HasKey h json_obj (lit "key") &&
  (Is common_IsFloat32 h json_obj (lit "key") &&
  (call (GetFloat32 h json_obj (lit "key")) (fun value value_errors =>
  negb value_errors &&
  (negb (is_nil value) &&
  (val_is value (dec F32 (lit "339999995214436424907732413799364296704")))))))).
Lemma TestCanParseFloat32PositiveHighBoundary_passes h0 : TestCanParseFloat32PositiveHighBoundary h0 = true.
Proof. passes TestCanParseFloat32PositiveHighBoundary. Qed.

(** JSON_Float_32_test.go:195-213 *)
Definition TestCanParseFloat32NegativeHighBoundary (h0 : heap) : bool :=
  ParseJSONSuccessfully h0 (lit "{""key"":-340000000000000000000000000000000000000.00}") (fun h json_obj =>
  HasKey h json_obj (lit "key") &&
  (Is common_IsFloat32 h json_obj (lit "key") &&
  (call (GetFloat32 h json_obj (lit "key")) (fun value value_errors =>
  negb value_errors &&
  (negb (is_nil value) &&
  (val_is value (dec F32 (lit "-339999995214436424907732413799364296704")))))))).
Lemma TestCanParseFloat32NegativeHighBoundary_passes h0 : TestCanParseFloat32NegativeHighBoundary h0 = true.
Proof. passes TestCanParseFloat32NegativeHighBoundary. Qed.

(** JSON_Float_32_test.go:215-249 *)
Definition TestCanParseFloat32MultiplePositiveHighBoundary (h0 : heap) : bool :=
  ParseJSONSuccessfully h0 (lit "{""key"":340000000000000000000000000000000000000.00,""key2"":339999999999999999999999999999999999999.99}") (fun h json_obj =>
  (HasKey h json_obj (lit "key") &&
  (Is common_IsFloat32 h json_obj (lit "key") &&
  (call (GetFloat32 h json_obj (lit "key")) (fun value value_errors =>
  negb value_errors &&
  (negb (is_nil value) &&
  (val_is value (dec F32 (lit "339999995214436424907732413799364296704")))))))) &&
  (HasKey h json_obj (lit "key2") &&
  (Is common_IsFloat32 h json_obj (lit "key") &&
  (call (GetFloat32 h json_obj (lit "key2")) (fun value value_errors =>
  negb value_errors &&
  (negb (is_nil value) &&
  (val_is value (dec F32 (lit "339999995214436424907732413799364296704"))))))))).
Lemma TestCanParseFloat32MultiplePositiveHighBoundary_passes h0 : TestCanParseFloat32MultiplePositiveHighBoundary h0 = true.
Proof. passes TestCanParseFloat32MultiplePositiveHighBoundary. Qed.

(** JSON_Float_32_test.go:251-285 *)
Definition TestCanParseFloat32MultipleNegativeHighBoundary (h0 : heap) : bool :=
  ParseJSONSuccessfully h0 (lit "{""key"":-340000000000000000000000000000000000000.00,""key2"":-339999999999999999999999999999999999999.99}") (fun h json_obj =>
  (HasKey h json_obj (lit "key") &&
  (Is common_IsFloat32 h json_obj (lit "key") &&
  (call (GetFloat32 h json_obj (lit "key")) (fun value value_errors =>
  negb value_errors &&
  (negb (is_nil value) &&
  (val_is value (dec F32 (lit "-339999995214436424907732413799364296704")))))))) &&
  (HasKey h json_obj (lit "key2") &&
  (Is common_IsFloat32 h json_obj (lit "key2") &&
  (call (GetFloat32 h json_obj (lit "key2")) (fun value value_errors =>
  negb value_errors &&
  (negb (is_nil value) &&
  (val_is value (dec F32 (lit "-339999995214436424907732413799364296704"))))))))).
Lemma TestCanParseFloat32MultipleNegativeHighBoundary_passes h0 : TestCanParseFloat32MultipleNegativeHighBoundary h0 = true.
Proof. passes TestCanParseFloat32MultipleNegativeHighBoundary. Qed.

(** JSON_Float_32_test.go:287-321 *)
Definition TestCanParseFloat32MultipleHighBoundary (h0 : heap) : bool :=
  ParseJSONSuccessfully h0 (lit "{""key"":340000000000000000000000000000000000000.00, ""key2"":-339999999999999999999999999999999999999.99}") (fun h json_obj =>
  (HasKey h json_obj (lit "key") &&
  (Is common_IsFloat32 h json_obj (lit "key") &&
  (call (GetFloat32 h json_obj (lit "key")) (fun value value_errors =>
  negb value_errors &&
  (negb (is_nil value) &&
  (val_is value (dec F32 (lit "339999995214436424907732413799364296704")))))))) &&
  (HasKey h json_obj (lit "key2") &&
  (Is common_IsFloat32 h json_obj (lit "key2") &&
  (call (GetFloat32 h json_obj (lit "key2")) (fun value value_errors =>
  negb value_errors &&
  (negb (is_nil value) &&
  (val_is value (dec F32 (lit "-339999995214436424907732413799364296704"))))))))).
Lemma TestCanParseFloat32MultipleHighBoundary_passes h0 : TestCanParseFloat32MultipleHighBoundary h0 = true.
Proof. passes TestCanParseFloat32MultipleHighBoundary. Qed.

(** ** JSON_Float_64_test.go *)

(** JSON_Float_64_test.go:9-27 *)
Definition TestCanParseFloat64PositiveLowBoundary (h0 : heap) : bool :=
  ParseJSONSuccessfully h0 (lit "{""key"":3402823466385288598117041834845169254400.000000}") (fun h json_obj =>
  HasKey h json_obj (lit "key") &&
  (Is common_IsFloat64 h json_obj (lit "key") &&
  (call (GetFloat64 h json_obj (lit "key")) (fun value value_errors =>
  negb value_errors &&
  (negb (is_nil value) &&
  (val_is value (dec F64 (lit "3402823466385288598117041834845169254400")))))))).
Lemma TestCanParseFloat64PositiveLowBoundary_passes h0 : TestCanParseFloat64PositiveLowBoundary h0 = true.
Proof. passes TestCanParseFloat64PositiveLowBoundary. Qed.

(** JSON_Float_64_test.go:29-47 *)
Definition TestCanParseFloat64NegativeLowBoundary (h0 : heap) : bool :=
  ParseJSONSuccessfully h0 (lit "{""key"":-3402823466385288598117041834845169254400.000000}") (fun h json_obj =>
  HasKey h json_obj (lit "key") &&
  (Is common_IsFloat64 h json_obj (lit "key") &&
  (call (GetFloat64 h json_obj (lit "key")) (fun value value_errors =>
  negb value_errors &&
  (negb (is_nil value) &&
  (val_is value (dec F64 (lit "-3402823466385288598117041834845169254400")))))))).
Lemma TestCanParseFloat64NegativeLowBoundary_passes h0 : TestCanParseFloat64NegativeLowBoundary h0 = true.
Proof. passes TestCanParseFloat64NegativeLowBoundary. Qed.

(** JSON_Float_64_test.go:49-83 *)
Definition TestCanParseFloat64MultiplePositiveLowBoundary (h0 : heap) : bool :=
  ParseJSONSuccessfully h0 (lit "{""key"":341234567890000000000000000000000000000.01,""key2"":349876543210000000000000000000000000000.01}") (fun h json_obj =>
  (HasKey h json_obj (lit "key") &&
  (Is common_IsFloat64 h json_obj (lit "key") &&
  (call (GetFloat64 h json_obj (lit "key")) (fun value value_errors =>
  negb value_errors &&
  (negb (is_nil value) &&
  (val_is value (dec F64 (lit "341234567890000035245075865190145196032")))))))) &&
  (HasKey h json_obj (lit "key2") &&
  (Is common_IsFloat64 h json_obj (lit "key") &&
  (call (GetFloat64 h json_obj (lit "key2")) (fun value value_errors =>
  negb value_errors &&
  (negb (is_nil value) &&
  (val_is value (dec F64 (lit "349876543209999962881779639780552736768"))))))))).
Lemma TestCanParseFloat64MultiplePositiveLowBoundary_passes h0 : TestCanParseFloat64MultiplePositiveLowBoundary h0 = true.
Proof. passes TestCanParseFloat64MultiplePositiveLowBoundary. Qed.

(** JSON_Float_64_test.go:85-119 *)
Definition TestCanParseFloat64MultipleNegativeLowBoundary (h0 : heap) : bool :=
  ParseJSONSuccessfully h0 (lit "{""key"":-341234567890000000000000000000000000000.01,""key2"":-349876543210000000000000000000000000000.01}") (fun h json_obj =>
  (HasKey h json_obj (lit "key") &&
  (Is common_IsFloat64 h json_obj (lit "key") &&
  (call (GetFloat64 h json_obj (lit "key")) (fun value value_errors =>
  negb value_errors &&
  (negb (is_nil value) &&
  (val_is value (dec F64 (lit "-341234567890000035245075865190145196032")))))))) &&
  (HasKey h json_obj (lit "key2") &&
  (Is common_IsFloat64 h json_obj (lit "key2") &&
  (call (GetFloat64 h json_obj (lit "key2")) (fun value value_errors =>
  negb value_errors &&
  (negb (is_nil value) &&
  (val_is value (dec F64 (lit "-349876543209999962881779639780552736768"))))))))).
Lemma TestCanParseFloat64MultipleNegativeLowBoundary_passes h0 : TestCanParseFloat64MultipleNegativeLowBoundary h0 = true.
Proof. passes TestCanParseFloat64MultipleNegativeLowBoundary. Qed.

(** JSON_Float_64_test.go:121-155 *)
Definition TestCanParseFloat64MultipleLowBoundary (h0 : heap) : bool :=
  ParseJSONSuccessfully h0 (lit "{""key"":341234567890000000000000000000000000000.01, ""key2"":-349876543210000000000000000000000000000.01}") (fun h json_obj =>
  (HasKey h json_obj (lit "key") &&
  (Is common_IsFloat64 h json_obj (lit "key") &&
  (call (GetFloat64 h json_obj (lit "key")) (fun value value_errors =>
  negb value_errors &&
  (negb (is_nil value) &&
  (val_is value (dec F64 (lit "341234567890000035245075865190145196032")))))))) &&
  (HasKey h json_obj (lit "key2") &&
  (Is common_IsFloat64 h json_obj (lit "key2") &&
  (call (GetFloat64 h json_obj (lit "key2")) (fun value value_errors =>
  negb value_errors &&
  (negb (is_nil value) &&
  (val_is value (dec F64 (lit "-349876543209999962881779639780552736768"))))))))).
Lemma TestCanParseFloat64MultipleLowBoundary_passes h0 : TestCanParseFloat64MultipleLowBoundary h0 = true.
Proof. passes TestCanParseFloat64MultipleLowBoundary. Qed.

(** JSON_Float_64_test.go:157-175 *)
Definition TestCanParseFloat64PositiveHighBoundary (h0 : heap) : bool :=
  ParseJSONSuccessfully h0 (lit "{""key"":170000000000000000000000000000000000000000000000000000000000000000000000000000000000000000000000000000000000000000000000000000000000000000000000000000000000000000000000000000000000000000000000000000000000000000000000000000000000000000000000000000000000000000000000000000000000000000000000000000000000000000000.00}") (fun h json_obj =>
  HasKey h json_obj (lit "key") &&
  (Is common_IsFloat64 h json_obj (lit "key") &&
  (call (GetFloat64 h json_obj (lit "key")) (fun value value_errors =>
  negb value_errors &&
  (negb (is_nil value) &&
  (val_is value (dec F64 (lit "169999999999999993883079578865998174333346074304075874502773119193537729178160565864330091787584707988572262467983188919169916105593357174268369962062473635296474636515660464935663040684957844303524367815028553272712298986386310828644513212353921123253311675499856875650512437415429217994623324794855339589632")))))))).
Lemma TestCanParseFloat64PositiveHighBoundary_passes h0 : TestCanParseFloat64PositiveHighBoundary h0 = true.
Proof. passes TestCanParseFloat64PositiveHighBoundary. Qed.

(** JSON_Float_64_test.go:177-195 *)
Definition TestCanParseFloat64NegativeHighBoundary (h0 : heap) : bool :=
  ParseJSONSuccessfully h0 (lit "{""key"":-170000000000000000000000000000000000000000000000000000000000000000000000000000000000000000000000000000000000000000000000000000000000000000000000000000000000000000000000000000000000000000000000000000000000000000000000000000000000000000000000000000000000000000000000000000000000000000000000000000000000000000000.00}") (fun h json_obj =>
  HasKey h json_obj (lit "key") &&
  (Is common_IsFloat64 h json_obj (lit "key") &&
  (call (GetFloat64 h json_obj (lit "key")) (fun value value_errors =>
  negb value_errors &&
  (negb (is_nil value) &&
  (val_is value (dec F64 (lit "-169999999999999993883079578865998174333346074304075874502773119193537729178160565864330091787584707988572262467983188919169916105593357174268369962062473635296474636515660464935663040684957844303524367815028553272712298986386310828644513212353921123253311675499856875650512437415429217994623324794855339589632")))))))).
Lemma TestCanParseFloat64NegativeHighBoundary_passes h0 : TestCanParseFloat64NegativeHighBoundary h0 = true.
Proof. passes TestCanParseFloat64NegativeHighBoundary. Qed.

(** JSON_Float_64_test.go:197-231 *)
Definition TestCanParseFloat64MultiplePositiveHighBoundary (h0 : heap) : bool :=
  ParseJSONSuccessfully h0 (lit "{""key"":170000000000000000000000000000000000000000000000000000000000000000000000000000000000000000000000000000000000000000000000000000000000000000000000000000000000000000000000000000000000000000000000000000000000000000000000000000000000000000000000000000000000000000000000000000000000000000000000000000000000000000000.00,""key2"":169999999999999999999999999999999999999999999999999999999999999999999999999999999999999999999999999999999999999999999999999999999999999999999999999999999999999999999999999999999999999999999999999999999999999999999999999999999999999999999999999999999999999999999999999999999999999999999999999999999999999999999.99}") (fun h json_obj =>
  (HasKey h json_obj (lit "key") &&
  (Is common_IsFloat64 h json_obj (lit "key") &&
  (call (GetFloat64 h json_obj (lit "key")) (fun value value_errors =>
  negb value_errors &&
  (negb (is_nil value) &&
  (val_is value (dec F64 (lit "169999999999999993883079578865998174333346074304075874502773119193537729178160565864330091787584707988572262467983188919169916105593357174268369962062473635296474636515660464935663040684957844303524367815028553272712298986386310828644513212353921123253311675499856875650512437415429217994623324794855339589632")))))))) &&
  (HasKey h json_obj (lit "key2") &&
  (Is common_IsFloat64 h json_obj (lit "key2") &&
  (call (GetFloat64 h json_obj (lit "key2")) (fun value value_errors =>
  negb value_errors &&
  (negb (is_nil value) &&
  (val_is value (dec F64 (lit "169999999999999993883079578865998174333346074304075874502773119193537729178160565864330091787584707988572262467983188919169916105593357174268369962062473635296474636515660464935663040684957844303524367815028553272712298986386310828644513212353921123253311675499856875650512437415429217994623324794855339589632"))))))))).
Lemma TestCanParseFloat64MultiplePositiveHighBoundary_passes h0 : TestCanParseFloat64MultiplePositiveHighBoundary h0 = true.
Proof. passes TestCanParseFloat64MultiplePositiveHighBoundary. Qed.

(** JSON_Float_64_test.go:233-267 *)
Definition TestCanParseFloat64MultipleNegativeHighBoundary (h0 : heap) : bool :=
  ParseJSONSuccessfully h0 (lit "{""key"":-169999999999999999999999999999999999999999999999999999999999999999999999999999999999999999999999999999999999999999999999999999999999999999999999999999999999999999999999999999999999999999999999999999999999999999999999999999999999999999999999999999999999999999999999999999999999999999999999999999999999999999999.98,""key2"":-169999999999999999999999999999999999999999999999999999999999999999999999999999999999999999999999999999999999999999999999999999999999999999999999999999999999999999999999999999999999999999999999999999999999999999999999999999999999999999999999999999999999999999999999999999999999999999999999999999999999999999999.99}") (fun h json_obj =>
  (HasKey h json_obj (lit "key") &&
  (Is common_IsFloat64 h json_obj (lit "key") &&
  (call (GetFloat64 h json_obj (lit "key")) (fun value value_errors =>
  negb value_errors &&
  (negb (is_nil value) &&
  (val_is value (dec F64 (lit "-169999999999999993883079578865998174333346074304075874502773119193537729178160565864330091787584707988572262467983188919169916105593357174268369962062473635296474636515660464935663040684957844303524367815028553272712298986386310828644513212353921123253311675499856875650512437415429217994623324794855339589632")))))))) &&
  (HasKey h json_obj (lit "key2") &&
  (Is common_IsFloat64 h json_obj (lit "key") &&
  (call (GetFloat64 h json_obj (lit "key2")) (fun value value_errors =>
  negb value_errors &&
  (negb (is_nil value) &&
  (val_is value (dec F64 (lit "-169999999999999993883079578865998174333346074304075874502773119193537729178160565864330091787584707988572262467983188919169916105593357174268369962062473635296474636515660464935663040684957844303524367815028553272712298986386310828644513212353921123253311675499856875650512437415429217994623324794855339589632"))))))))).
Lemma TestCanParseFloat64MultipleNegativeHighBoundary_passes h0 : TestCanParseFloat64MultipleNegativeHighBoundary h0 = true.
Proof. passes TestCanParseFloat64MultipleNegativeHighBoundary. Qed.

(** JSON_Float_64_test.go:269-303 *)
Definition TestCanParseFloat64MultipleHighBoundary (h0 : heap) : bool :=
  ParseJSONSuccessfully h0 (lit "{""key"":170000000000000000000000000000000000000000000000000000000000000000000000000000000000000000000000000000000000000000000000000000000000000000000000000000000000000000000000000000000000000000000000000000000000000000000000000000000000000000000000000000000000000000000000000000000000000000000000000000000000000000000.01, ""key2"":-170000000000000000000000000000000000000000000000000000000000000000000000000000000000000000000000000000000000000000000000000000000000000000000000000000000000000000000000000000000000000000000000000000000000000000000000000000000000000000000000000000000000000000000000000000000000000000000000000000000000000000000.01}") (fun h json_obj =>
  (HasKey h json_obj (lit "key") &&
  (Is common_IsFloat64 h json_obj (lit "key") &&
  (call (GetFloat64 h json_obj (lit "key")) (fun value value_errors =>
  negb value_errors &&
  (negb (is_nil value) &&
  (val_is value (dec F64 (lit "169999999999999993883079578865998174333346074304075874502773119193537729178160565864330091787584707988572262467983188919169916105593357174268369962062473635296474636515660464935663040684957844303524367815028553272712298986386310828644513212353921123253311675499856875650512437415429217994623324794855339589632")))))))) &&
  (HasKey h json_obj (lit "key2") &&
  (Is common_IsFloat64 h json_obj (lit "key2") &&
  (call (GetFloat64 h json_obj (lit "key2")) (fun value value_errors =>
  negb value_errors &&
  (negb (is_nil value) &&
  (val_is value (dec F64 (lit "-169999999999999993883079578865998174333346074304075874502773119193537729178160565864330091787584707988572262467983188919169916105593357174268369962062473635296474636515660464935663040684957844303524367815028553272712298986386310828644513212353921123253311675499856875650512437415429217994623324794855339589632"))))))))).
Lemma TestCanParseFloat64MultipleHighBoundary_passes h0 : TestCanParseFloat64MultipleHighBoundary h0 = true.
Proof. passes TestCanParseFloat64MultipleHighBoundary. Qed.

(** ** JSON_Integer_signed_08_test.go *)

(** JSON_Integer_signed_08_test.go:7-25 *)
Definition TestCanParseNegativeInt8LowBoundary (h0 : heap) : bool :=
  ParseJSONSuccessfully h0 (lit "{""key"":-1}") (fun h json_obj =>
  HasKey h json_obj (lit "key") &&
  (Is (common_IsIntKind KInt8) h json_obj (lit "key") &&
  (call (GetInt KInt8 h json_obj (lit "key")) (fun value value_errors =>
  negb value_errors &&
  (negb (is_nil value) &&
  (val_is value (Some (SInt KInt8 (-1))))))))).
Lemma TestCanParseNegativeInt8LowBoundary_passes h0 : TestCanParseNegativeInt8LowBoundary h0 = true.
Proof. passes TestCanParseNegativeInt8LowBoundary. Qed.

(** JSON_Integer_signed_08_test.go:27-45 *)
Definition TestCanParseNegativeInt8HighBoundary (h0 : heap) : bool :=
  ParseJSONSuccessfully h0 (lit "{""key"":-128}") (fun h json_obj =>
  HasKey h json_obj (lit "key") &&
  (Is (common_IsIntKind KInt8) h json_obj (lit "key") &&
  (call (GetInt KInt8 h json_obj (lit "key")) (fun value value_errors =>
  negb value_errors &&
  (negb (is_nil value) &&
  (val_is value (Some (SInt KInt8 (-128))))))))).
Lemma TestCanParseNegativeInt8HighBoundary_passes h0 : TestCanParseNegativeInt8HighBoundary h0 = true.
Proof. passes TestCanParseNegativeInt8HighBoundary. Qed.

(** ** JSON_Integer_signed_16_test.go *)

(** JSON_Integer_signed_16_test.go:7-25 *)
Definition TestCanParseNegativeInt16LowBoundary (h0 : heap) : bool :=
  ParseJSONSuccessfully h0 (lit "{""key"":-129}") (fun h json_obj =>
  HasKey h json_obj (lit "key") &&
  (Is (common_IsIntKind KInt16) h json_obj (lit "key") &&
  (call (GetInt KInt16 h json_obj (lit "key")) (fun value value_errors =>
  negb value_errors &&
  (negb (is_nil value) &&
  (val_is value (Some (SInt KInt16 (-129))))))))).
Lemma TestCanParseNegativeInt16LowBoundary_passes h0 : TestCanParseNegativeInt16LowBoundary h0 = true.
Proof. passes TestCanParseNegativeInt16LowBoundary. Qed.

(** JSON_Integer_signed_16_test.go:27-45 *)
Definition TestCanParseNegativeInt16HighBoundary (h0 : heap) : bool :=
  ParseJSONSuccessfully h0 (lit "{""key"":-32768}") (fun h json_obj =>
  HasKey h json_obj (lit "key") &&
  (Is (common_IsIntKind KInt16) h json_obj (lit "key") &&
  (call (GetInt KInt16 h json_obj (lit "key")) (fun value value_errors =>
  negb value_errors &&
  (negb (is_nil value) &&
  (val_is value (Some (SInt KInt16 (-32768))))))))).
Lemma TestCanParseNegativeInt16HighBoundary_passes h0 : TestCanParseNegativeInt16HighBoundary h0 = true.
Proof. passes TestCanParseNegativeInt16HighBoundary. Qed.

(** ** JSON_Integer_signed_32_test.go *)

(** JSON_Integer_signed_32_test.go:7-25 *)
Definition TestCanParseNegativeInt32LowBoundary (h0 : heap) : bool :=
  ParseJSONSuccessfully h0 (lit "{""key"":-32769}") (fun h json_obj =>
  HasKey h json_obj (lit "key") &&
  (Is (common_IsIntKind KInt32) h json_obj (lit "key") &&
  (call (GetInt KInt32 h json_obj (lit "key")) (fun value value_errors =>
  negb value_errors &&
  (negb (is_nil value) &&
  (val_is value (Some (SInt KInt32 (-32769))))))))).
Lemma TestCanParseNegativeInt32LowBoundary_passes h0 : TestCanParseNegativeInt32LowBoundary h0 = true.
Proof. passes TestCanParseNegativeInt32LowBoundary. Qed.

(** JSON_Integer_signed_32_test.go:27-45 *)
Definition TestCanParseNegativeInt32HighBoundarfy (h0 : heap) : bool :=
  ParseJSONSuccessfully h0 (lit "{""key"":-2147483648}") (fun h json_obj =>
  HasKey h json_obj (lit "key") &&
  (Is (common_IsIntKind KInt32) h json_obj (lit "key") &&
  (call (GetInt KInt32 h json_obj (lit "key")) (fun value value_errors =>
  negb value_errors &&
  (negb (is_nil value) &&
  (val_is value (Some (SInt KInt32 (-2147483648))))))))).
Lemma TestCanParseNegativeInt32HighBoundarfy_passes h0 : TestCanParseNegativeInt32HighBoundarfy h0 = true.
Proof. passes TestCanParseNegativeInt32HighBoundarfy. Qed.

(** ** JSON_Integer_signed_64_test.go *)

(** JSON_Integer_signed_64_test.go:8-26 *)
Definition TestCanParseNegativeInt64LowBoundary (h0 : heap) : bool :=
  ParseJSONSuccessfully h0 (lit "{""key"":-2147483649}") (fun h json_obj =>
  HasKey h json_obj (lit "key") &&
  (Is (common_IsIntKind KInt64) h json_obj (lit "key") &&
  (call (GetInt KInt64 h json_obj (lit "key")) (fun value value_errors =>
  negb value_errors &&
  (negb (is_nil value) &&
  (val_is value (Some (SInt KInt64 (-2147483649))))))))).
Lemma TestCanParseNegativeInt64LowBoundary_passes h0 : TestCanParseNegativeInt64LowBoundary h0 = true.
Proof. passes TestCanParseNegativeInt64LowBoundary. Qed.

(** JSON_Integer_signed_64_test.go:28-46 *)
Definition TestCanParseNegativeInt64HighBoundary (h0 : heap) : bool :=
  ParseJSONSuccessfully h0 (lit "{""key"":-9223372036854775808}") (fun h json_obj =>
  HasKey h json_obj (lit "key") &&
  (Is (common_IsIntKind KInt64) h json_obj (lit "key") &&
  (call (GetInt KInt64 h json_obj (lit "key")) (fun value value_errors =>
  negb value_errors &&
  (negb (is_nil value) &&
  (val_is value (Some (SInt KInt64 (-9223372036854775808))))))))).
Lemma TestCanParseNegativeInt64HighBoundary_passes h0 : TestCanParseNegativeInt64HighBoundary h0 = true.
Proof. passes TestCanParseNegativeInt64HighBoundary. Qed.

(** JSON_Integer_signed_64_test.go:48-58 *)
Definition TestCannotParseNegativeInt64Overflow (h0 : heap) : bool :=
  with_parse h0 (lit "{""key"":-9223372036854775809}") (fun h json json_errors =>
  (json_errors) &&
  (is_nil json)).
Lemma TestCannotParseNegativeInt64Overflow_passes h0 : TestCannotParseNegativeInt64Overflow h0 = true.
Proof. passes TestCannotParseNegativeInt64Overflow. Qed.

(** ** JSON_Integer_unsigned_08_test.go *)

(** JSON_Integer_unsigned_08_test.go:7-26 *)
Definition TestCanParseUInt8LowBoundary (h0 : heap) : bool :=
  ParseJSONSuccessfully h0 (lit "{""key"":0}") (fun h json_obj =>
  HasKey h json_obj (lit "key") &&
  (Is (common_IsIntKind KUInt8) h json_obj (lit "key") &&
  (call (GetInt KUInt8 h json_obj (lit "key")) (fun value value_errors =>
  negb value_errors &&
  (negb (is_nil value) &&
  (val_is value (Some (SInt KUInt8 (0))))))))).
Lemma TestCanParseUInt8LowBoundary_passes h0 : TestCanParseUInt8LowBoundary h0 = true.
Proof. passes TestCanParseUInt8LowBoundary. Qed.

(** JSON_Integer_unsigned_08_test.go:28-47 *)
Definition TestCanParseUInt8LowBoundaryWithSpaceBeforeValue (h0 : heap) : bool :=
  ParseJSONSuccessfully h0 (lit "{""key"": 0}") (fun h json_obj =>
  HasKey h json_obj (lit "key") &&
  (Is (common_IsIntKind KUInt8) h json_obj (lit "key") &&
  (call (GetInt KUInt8 h json_obj (lit "key")) (fun value value_errors =>
  negb value_errors &&
  (negb (is_nil value) &&
  (val_is value (Some (SInt KUInt8 (0))))))))).
Lemma TestCanParseUInt8LowBoundaryWithSpaceBeforeValue_passes h0 : TestCanParseUInt8LowBoundaryWithSpaceBeforeValue h0 = true.
Proof. passes TestCanParseUInt8LowBoundaryWithSpaceBeforeValue. Qed.

(** JSON_Integer_unsigned_08_test.go:49-68 *)
Definition TestCanParseUInt8LowBoundaryWithSpaceAfterValue (h0 : heap) : bool :=
  ParseJSONSuccessfully h0 (lit "{""key"":0 }") (fun h json_obj =>
  HasKey h json_obj (lit "key") &&
  (Is (common_IsIntKind KUInt8) h json_obj (lit "key") &&
  (call (GetInt KUInt8 h json_obj (lit "key")) (fun value value_errors =>
  negb value_errors &&
  (negb (is_nil value) &&
  (val_is value (Some (SInt KUInt8 (0))))))))).
Lemma TestCanParseUInt8LowBoundaryWithSpaceAfterValue_passes h0 : TestCanParseUInt8LowBoundaryWithSpaceAfterValue h0 = true.
Proof. passes TestCanParseUInt8LowBoundaryWithSpaceAfterValue. Qed.

(** JSON_Integer_unsigned_08_test.go:70-89 *)
Definition TestCanParseUInt8LowBoundaryWithNewlineBeforeValue (h0 : heap) : bool :=
  ParseJSONSuccessfully h0 (lit "{""key"":" ++ [ascii_of_nat 10] ++ lit "0}") (fun h json_obj =>
  HasKey h json_obj (lit "key") &&
  (Is (common_IsIntKind KUInt8) h json_obj (lit "key") &&
  (call (GetInt KUInt8 h json_obj (lit "key")) (fun value value_errors =>
  negb value_errors &&
  (negb (is_nil value) &&
  (val_is value (Some (SInt KUInt8 (0))))))))).
Lemma TestCanParseUInt8LowBoundaryWithNewlineBeforeValue_passes h0 : TestCanParseUInt8LowBoundaryWithNewlineBeforeValue h0 = true.
Proof. passes TestCanParseUInt8LowBoundaryWithNewlineBeforeValue. Qed.

(** JSON_Integer_unsigned_08_test.go:91-110 *)
Definition TestCanParseUInt8LowBoundaryWithNewlineAfterValue (h0 : heap) : bool :=
  ParseJSONSuccessfully h0 (lit "{""key"":0" ++ [ascii_of_nat 10] ++ lit "}") (fun h json_obj =>
  HasKey h json_obj (lit "key") &&
  (Is (common_IsIntKind KUInt8) h json_obj (lit "key") &&
  (call (GetInt KUInt8 h json_obj (lit "key")) (fun value value_errors =>
  negb value_errors &&
  (negb (is_nil value) &&
  (val_is value (Some (SInt KUInt8 (0))))))))).
Lemma TestCanParseUInt8LowBoundaryWithNewlineAfterValue_passes h0 : TestCanParseUInt8LowBoundaryWithNewlineAfterValue h0 = true.
Proof. passes TestCanParseUInt8LowBoundaryWithNewlineAfterValue. Qed.

(** JSON_Integer_unsigned_08_test.go:112-131 *)
Definition TestCanParseUInt8LowBoundaryWithDosNewlineBeforeValue (h0 : heap) : bool :=
  ParseJSONSuccessfully h0 (lit "{""key"":" ++ [ascii_of_nat 13] ++ [ascii_of_nat 10] ++ lit "0}") (fun h json_obj =>
  HasKey h json_obj (lit "key") &&
  (Is (common_IsIntKind KUInt8) h json_obj (lit "key") &&
  (call (GetInt KUInt8 h json_obj (lit "key")) (fun value value_errors =>
  negb value_errors &&
  (negb (is_nil value) &&
  (val_is value (Some (SInt KUInt8 (0))))))))).
Lemma TestCanParseUInt8LowBoundaryWithDosNewlineBeforeValue_passes h0 : TestCanParseUInt8LowBoundaryWithDosNewlineBeforeValue h0 = true.
Proof. passes TestCanParseUInt8LowBoundaryWithDosNewlineBeforeValue. Qed.

(** JSON_Integer_unsigned_08_test.go:133-152 *)
Definition TestCanParseUInt8LowBoundaryWithDosNewlineAfterValue (h0 : heap) : bool :=
  ParseJSONSuccessfully h0 (lit "{""key"":0" ++ [ascii_of_nat 13] ++ [ascii_of_nat 10] ++ lit "}") (fun h json_obj =>
  HasKey h json_obj (lit "key") &&
  (Is (common_IsIntKind KUInt8) h json_obj (lit "key") &&
  (call (GetInt KUInt8 h json_obj (lit "key")) (fun value value_errors =>
  negb value_errors &&
  (negb (is_nil value) &&
  (val_is value (Some (SInt KUInt8 (0))))))))).
Lemma TestCanParseUInt8LowBoundaryWithDosNewlineAfterValue_passes h0 : TestCanParseUInt8LowBoundaryWithDosNewlineAfterValue h0 = true.
Proof. passes TestCanParseUInt8LowBoundaryWithDosNewlineAfterValue. Qed.

(** JSON_Integer_unsigned_08_test.go:154-173 *)
Definition TestCanParseUInt8HighBoundary (h0 : heap) : bool :=
  ParseJSONSuccessfully h0 (lit "{""key"":255}") (fun h json_obj =>
  HasKey h json_obj (lit "key") &&
  (Is (common_IsIntKind KUInt8) h json_obj (lit "key") &&
  (call (GetInt KUInt8 h json_obj (lit "key")) (fun value value_errors =>
  negb value_errors &&
  (negb (is_nil value) &&
  (val_is value (Some (SInt KUInt8 (255))))))))).
Lemma TestCanParseUInt8HighBoundary_passes h0 : TestCanParseUInt8HighBoundary h0 = true.
Proof. passes TestCanParseUInt8HighBoundary. Qed.

(** ** JSON_Integer_unsigned_16_test.go *)

(** JSON_Integer_unsigned_16_test.go:7-26 *)
Definition TestCanParseUInt16LowBoundary (h0 : heap) : bool :=
  ParseJSONSuccessfully h0 (lit "{""key"":256}") (fun h json_obj =>
  HasKey h json_obj (lit "key") &&
  (Is (common_IsIntKind KUInt16) h json_obj (lit "key") &&
  (call (GetInt KUInt16 h json_obj (lit "key")) (fun value value_errors =>
  negb value_errors &&
  (negb (is_nil value) &&
  (val_is value (Some (SInt KUInt16 (256))))))))).
Lemma TestCanParseUInt16LowBoundary_passes h0 : TestCanParseUInt16LowBoundary h0 = true.
Proof. passes TestCanParseUInt16LowBoundary. Qed.

(** JSON_Integer_unsigned_16_test.go:28-47 *)
Definition TestCanParseUInt16HighBoundary (h0 : heap) : bool :=
  ParseJSONSuccessfully h0 (lit "{""key"":65535}") (fun h json_obj =>
  HasKey h json_obj (lit "key") &&
  (Is (common_IsIntKind KUInt16) h json_obj (lit "key") &&
  (call (GetInt KUInt16 h json_obj (lit "key")) (fun value value_errors =>
  negb value_errors &&
  (negb (is_nil value) &&
  (val_is value (Some (SInt KUInt16 (65535))))))))).
Lemma TestCanParseUInt16HighBoundary_passes h0 : TestCanParseUInt16HighBoundary h0 = true.
Proof. passes TestCanParseUInt16HighBoundary. Qed.

(** ** JSON_Integer_unsigned_32_test.go *)

(** JSON_Integer_unsigned_32_test.go:7-26 *)
Definition TestCanParseUInt32LowBoundary (h0 : heap) : bool :=
  ParseJSONSuccessfully h0 (lit "{""key"":65536}") (fun h json_obj =>
  HasKey h json_obj (lit "key") &&
  (Is (common_IsIntKind KUInt32) h json_obj (lit "key") &&
  (call (GetInt KUInt32 h json_obj (lit "key")) (fun value value_errors =>
  negb value_errors &&
  (negb (is_nil value) &&
  (val_is value (Some (SInt KUInt32 (65536))))))))).
Lemma TestCanParseUInt32LowBoundary_passes h0 : TestCanParseUInt32LowBoundary h0 = true.
Proof. passes TestCanParseUInt32LowBoundary. Qed.

(** JSON_Integer_unsigned_32_test.go:28-47 *)
Definition TestCanParseUInt32HighBoundary (h0 : heap) : bool :=
  ParseJSONSuccessfully h0 (lit "{""key"":4294967295}") (fun h json_obj =>
  HasKey h json_obj (lit "key") &&
  (Is (common_IsIntKind KUInt32) h json_obj (lit "key") &&
  (call (GetInt KUInt32 h json_obj (lit "key")) (fun value value_errors =>
  negb value_errors &&
  (negb (is_nil value) &&
  (val_is value (Some (SInt KUInt32 (4294967295))))))))).
Lemma TestCanParseUInt32HighBoundary_passes h0 : TestCanParseUInt32HighBoundary h0 = true.
Proof. passes TestCanParseUInt32HighBoundary. Qed.

(** ** JSON_Integer_unsigned_64_test.go *)

(** JSON_Integer_unsigned_64_test.go:9-28 *)
Definition TestCanParseUInt64LowBoundary (h0 : heap) : bool :=
  ParseJSONSuccessfully h0 (lit "{""key"":4294967296}") (fun h json_obj =>
  HasKey h json_obj (lit "key") &&
  (Is (common_IsIntKind KUInt64) h json_obj (lit "key") &&
  (call (GetInt KUInt64 h json_obj (lit "key")) (fun value value_errors =>
  negb value_errors &&
  (negb (is_nil value) &&
  (val_is value (Some (SInt KUInt64 (4294967296))))))))).
Lemma TestCanParseUInt64LowBoundary_passes h0 : TestCanParseUInt64LowBoundary h0 = true.
Proof. passes TestCanParseUInt64LowBoundary. Qed.

(** JSON_Integer_unsigned_64_test.go:30-49 *)
Definition TestCanParseUInt64HighBoundary (h0 : heap) : bool :=
  ParseJSONSuccessfully h0 (lit "{""key"":18446744073709551615}") (fun h json_obj =>
  HasKey h json_obj (lit "key") &&
  (Is (common_IsIntKind KUInt64) h json_obj (lit "key") &&
  (call (GetInt KUInt64 h json_obj (lit "key")) (fun value value_errors =>
  negb value_errors &&
  (negb (is_nil value) &&
  (val_is value (Some (SInt KUInt64 (18446744073709551615))))))))).
Lemma TestCanParseUInt64HighBoundary_passes h0 : TestCanParseUInt64HighBoundary h0 = true.
Proof. passes TestCanParseUInt64HighBoundary. Qed.

(** JSON_Integer_unsigned_64_test.go:51-61 *)
Definition TestCannotParseUInt64Overflow (h0 : heap) : bool :=
  with_parse h0 (lit "{""key"":18446744073709551616}") (fun h json json_errors =>
  (json_errors) &&
  (is_nil json)).
Lemma TestCannotParseUInt64Overflow_passes h0 : TestCannotParseUInt64Overflow h0 = true.
Proof. passes TestCannotParseUInt64Overflow. Qed.

(** JSON_Integer_unsigned_64_test.go:63-97 *)
Definition TestCanParseUInt64PositiveMuitpleHighBondary (h0 : heap) : bool :=
  ParseJSONSuccessfully h0 (lit "{""key"":4294967296,""key2"":4294967297}") (fun h json_obj =>
  (HasKey h json_obj (lit "key") &&
  (Is (common_IsIntKind KUInt64) h json_obj (lit "key") &&
  (call (GetInt KUInt64 h json_obj (lit "key")) (fun value value_errors =>
  negb value_errors &&
  (negb (is_nil value) &&
  (val_is value (Some (SInt KUInt64 (4294967296))))))))) &&
  (HasKey h json_obj (lit "key2") &&
  (Is (common_IsIntKind KUInt64) h json_obj (lit "key2") &&
  (call (GetInt KUInt64 h json_obj (lit "key2")) (fun value value_errors =>
  negb value_errors &&
  (negb (is_nil value) &&
  (val_is value (Some (SInt KUInt64 (4294967297)))))))))).
Lemma TestCanParseUInt64PositiveMuitpleHighBondary_passes h0 : TestCanParseUInt64PositiveMuitpleHighBondary h0 = true.
Proof. passes TestCanParseUInt64PositiveMuitpleHighBondary. Qed.

(** ** JSON_Map_String_test.go *)

(** JSON_Map_String_test.go:8-26 *)
Definition TestCanParseEmptyMap (h0 : heap) : bool :=
  ParseJSONSuccessfully h0 (lit "{""key"":{}}") (fun h json_obj =>
  HasKey h json_obj (lit "key") &&
  (Is common_IsMap h json_obj (lit "key") &&
  (call (GetMap h json_obj (lit "key")) (fun value value_errors =>
  negb value_errors &&
  (negb (is_nil value) &&
  (KeyCountOf h value 0)))))).
Lemma TestCanParseEmptyMap_passes h0 : TestCanParseEmptyMap h0 = true.
Proof. passes TestCanParseEmptyMap. Qed.

(** JSON_Map_String_test.go:28-56 *)
Definition TestCanParseNestedMapWithStringValue (h0 : heap) : bool :=
  ParseJSONSuccessfully h0 (lit "{""key"":{""key1"":""value1""}}") (fun h json_obj =>
  HasKey h json_obj (lit "key") &&
  (Is common_IsMap h json_obj (lit "key") &&
  (call (GetMap h json_obj (lit "key")) (fun value value_errors =>
  negb value_errors &&
  (negb (is_nil value) &&
  (KeyCountOf h value 1 &&
  (on value (fun value_m => call (GetString h value_m (lit "key1")) (fun inner_value inner_value_errors =>
  negb inner_value_errors &&
  (negb (is_nil inner_value) &&
  (val_is inner_value (Some (SStr (lit "value1")))))))))))))).
Lemma TestCanParseNestedMapWithStringValue_passes h0 : TestCanParseNestedMapWithStringValue h0 = true.
Proof. passes TestCanParseNestedMapWithStringValue. Qed.

(** JSON_Map_String_test.go:58-96 *)
Definition TestCanParseNestedMapWithMultipleStringValue (h0 : heap) : bool :=
  ParseJSONSuccessfully h0 (lit "{""key"":{""key1"":""value1"",""key2"":""value2""}}") (fun h json_obj =>
  HasKey h json_obj (lit "key") &&
  (Is common_IsMap h json_obj (lit "key") &&
  (call (GetMap h json_obj (lit "key")) (fun value value_errors =>
  negb value_errors &&
  (negb (is_nil value) &&
  (KeyCountOf h value 2 &&
  (on value (fun value_m => call (GetString h value_m (lit "key1")) (fun inner_value inner_value_errors =>
  (negb inner_value_errors &&
  (negb (is_nil inner_value) &&
  (val_is inner_value (Some (SStr (lit "value1")))))) &&
  (on value (fun value_m => call (GetString h value_m (lit "key2")) (fun inner_value2 inner_value2_errors =>
  negb inner_value2_errors &&
  (negb (is_nil inner_value2) &&
  (val_is inner_value2 (Some (SStr (lit "value2"))))))))))))))))).
Lemma TestCanParseNestedMapWithMultipleStringValue_passes h0 : TestCanParseNestedMapWithMultipleStringValue h0 = true.
Proof. passes TestCanParseNestedMapWithMultipleStringValue. Qed.

(** JSON_Map_String_test.go:98-136 *)
Definition TestCanParseDoubleNestedMapWithStringValue (h0 : heap) : bool :=
  ParseJSONSuccessfully h0 (lit "{""key"":{""key2"":{""key3"":""value3""}}}") (fun h json_obj =>
  HasKey h json_obj (lit "key") &&
  (Is common_IsMap h json_obj (lit "key") &&
  (call (GetMap h json_obj (lit "key")) (fun value value_errors =>
  negb value_errors &&
  (negb (is_nil value) &&
  (KeyCountOf h value 1 &&
  (on value (fun value_m => call (GetMap h value_m (lit "key2")) (fun inner_value inner_value_errors =>
  negb inner_value_errors &&
  (negb (is_nil inner_value) &&
  (on value (fun o => Is common_IsMap h o (lit "key2")) &&
  (on inner_value (fun inner_value_m => call (GetString h inner_value_m (lit "key3")) (fun inner_value2 inner_value2_errors =>
  negb inner_value2_errors &&
  (negb (is_nil inner_value2) &&
  (val_is inner_value2 (Some (SStr (lit "value3"))))))))))))))))))).
Lemma TestCanParseDoubleNestedMapWithStringValue_passes h0 : TestCanParseDoubleNestedMapWithStringValue h0 = true.
Proof. passes TestCanParseDoubleNestedMapWithStringValue. Qed.

(** JSON_Map_String_test.go:138-186 *)
Definition TestCanParseDoubleNestedMapWithStringValueAndStringValueAtRootLevelAfter (h0 : heap) : bool :=
  ParseJSONSuccessfully h0 (lit "{""key"":{""key2"":{""key3"":""value3""}},""key4"":""value4""}") (fun h json_obj =>
  HasKey h json_obj (lit "key") &&
  (Is common_IsMap h json_obj (lit "key") &&
  (call (GetMap h json_obj (lit "key")) (fun value value_errors =>
  (negb value_errors &&
  (negb (is_nil value) &&
  (KeyCountOf h value 1 &&
  (on value (fun value_m => call (GetMap h value_m (lit "key2")) (fun inner_value inner_value_errors =>
  negb inner_value_errors &&
  (negb (is_nil inner_value) &&
  (on value (fun o => Is common_IsMap h o (lit "key2")) &&
  (on inner_value (fun inner_value_m => call (GetString h inner_value_m (lit "key3")) (fun inner_value2 inner_value2_errors =>
  negb inner_value2_errors &&
  (negb (is_nil inner_value2) &&
  (val_is inner_value2 (Some (SStr (lit "value3")))))))))))))))) &&
  (call (GetString h json_obj (lit "key4")) (fun value4 inner_value4_errors =>
  negb inner_value4_errors &&
  (negb (is_nil value4) &&
  (val_is value4 (Some (SStr (lit "value4"))))))))))).
Lemma TestCanParseDoubleNestedMapWithStringValueAndStringValueAtRootLevelAfter_passes h0 : TestCanParseDoubleNestedMapWithStringValueAndStringValueAtRootLevelAfter h0 = true.
Proof. passes TestCanParseDoubleNestedMapWithStringValueAndStringValueAtRootLevelAfter. Qed.

(** ** JSON_Nil_test.go *)

(** JSON_Nil_test.go:7-23 *)
Definition TestCanParseNil (h0 : heap) : bool :=
  ParseJSONSuccessfully h0 (lit "{""key"":null}") (fun h json_obj =>
  HasKey h json_obj (lit "key") &&
  (TypeIs h json_obj (lit "key") (lit "nil") &&
  (call (GetString h json_obj (lit "key")) (fun value value_errors =>
  negb value_errors &&
  (is_nil value))))).
Lemma TestCanParseNil_passes h0 : TestCanParseNil h0 = true.
Proof. passes TestCanParseNil. Qed.

(** JSON_Nil_test.go:25-54 *)
Definition TestCanParseMultipleNil (h0 : heap) : bool :=
  ParseJSONSuccessfully h0 (lit "{""key"":null,""key2"":null}") (fun h json_obj =>
  (HasKey h json_obj (lit "key") &&
  (TypeIs h json_obj (lit "key") (lit "nil") &&
  (call (GetString h json_obj (lit "key")) (fun value value_errors =>
  negb value_errors &&
  (is_nil value))))) &&
  (HasKey h json_obj (lit "key2") &&
  (TypeIs h json_obj (lit "key2") (lit "nil") &&
  (call (GetString h json_obj (lit "key2")) (fun value value_errors =>
  negb value_errors &&
  (is_nil value)))))).
Lemma TestCanParseMultipleNil_passes h0 : TestCanParseMultipleNil h0 = true.
Proof. passes TestCanParseMultipleNil. Qed.

(** ** JSON_String_test.go *)

(** JSON_String_test.go:8-26 *)
Definition TestCanParseString (h0 : heap) : bool :=
  ParseJSONSuccessfully h0 (lit "{""key"":""value""}") (fun h json_obj =>
  HasKey h json_obj (lit "key") &&
  (Is common_IsString h json_obj (lit "key") &&
  (call (GetString h json_obj (lit "key")) (fun value value_errors =>
  negb value_errors &&
  (negb (is_nil value) &&
  (val_is value (Some (SStr (lit "value"))))))))).
Lemma TestCanParseString_passes h0 : TestCanParseString h0 = true.
Proof. passes TestCanParseString. Qed.

(** JSON_String_test.go:28-46 *)
Definition TestCanParseStringWithLeadingTrailingLineBreaks (h0 : heap) : bool :=
  ParseJSONSuccessfully h0 (lit "{" ++ [ascii_of_nat 10] ++ lit """key"":""value""" ++ [ascii_of_nat 10] ++ lit "}") (fun h json_obj =>
  HasKey h json_obj (lit "key") &&
  (Is common_IsString h json_obj (lit "key") &&
  (call (GetString h json_obj (lit "key")) (fun value value_errors =>
  negb value_errors &&
  (negb (is_nil value) &&
  (val_is value (Some (SStr (lit "value"))))))))).
Lemma TestCanParseStringWithLeadingTrailingLineBreaks_passes h0 : TestCanParseStringWithLeadingTrailingLineBreaks h0 = true.
Proof. passes TestCanParseStringWithLeadingTrailingLineBreaks. Qed.

(** JSON_String_test.go:48-66 *)
Definition TestCanParseStringWithLeadingTrailingLineBreakLiteral (h0 : heap) : bool :=
  ParseJSONSuccessfully h0 (lit "{\n""key"":""value""\n}") (fun h json_obj =>
  HasKey h json_obj (lit "key") &&
  (Is common_IsString h json_obj (lit "key") &&
  (call (GetString h json_obj (lit "key")) (fun value value_errors =>
  negb value_errors &&
  (negb (is_nil value) &&
  (val_is value (Some (SStr (lit "value"))))))))).
Lemma TestCanParseStringWithLeadingTrailingLineBreakLiteral_passes h0 : TestCanParseStringWithLeadingTrailingLineBreakLiteral h0 = true.
Proof. passes TestCanParseStringWithLeadingTrailingLineBreakLiteral. Qed.

(** JSON_String_test.go:68-86 *)
Definition TestCanParseStringWithLeadingTrailingLineBreakLiteralAndReal (h0 : heap) : bool :=
  ParseJSONSuccessfully h0 (lit "{\" ++ [ascii_of_nat 10] ++ lit """key"":""value""\" ++ [ascii_of_nat 10] ++ lit "}") (fun h json_obj =>
  HasKey h json_obj (lit "key") &&
  (Is common_IsString h json_obj (lit "key") &&
  (call (GetString h json_obj (lit "key")) (fun value value_errors =>
  negb value_errors &&
  (negb (is_nil value) &&
  (val_is value (Some (SStr (lit "value"))))))))).
Lemma TestCanParseStringWithLeadingTrailingLineBreakLiteralAndReal_passes h0 : TestCanParseStringWithLeadingTrailingLineBreakLiteralAndReal h0 = true.
Proof. passes TestCanParseStringWithLeadingTrailingLineBreakLiteralAndReal. Qed.

(** JSON_String_test.go:88-106 *)
Definition TestCanParseNestedJSONString (h0 : heap) : bool :=
  ParseJSONSuccessfully h0 (lit "{""key"":""{\""inner_key\"":\""inner_value\""}""}") (fun h json_obj =>
  HasKey h json_obj (lit "key") &&
  (Is common_IsString h json_obj (lit "key") &&
  (call (GetString h json_obj (lit "key")) (fun value value_errors =>
  negb value_errors &&
  (negb (is_nil value) &&
  (val_is value (Some (SStr (lit "{""inner_key"":""inner_value""}"))))))))).
Lemma TestCanParseNestedJSONString_passes h0 : TestCanParseNestedJSONString h0 = true.
Proof. passes TestCanParseNestedJSONString. Qed.

(** JSON_String_test.go:108-126 *)
Definition TestCanParseEmptyString (h0 : heap) : bool :=
  ParseJSONSuccessfully h0 (lit "{""key"":""""}") (fun h json_obj =>
  HasKey h json_obj (lit "key") &&
  (Is common_IsString h json_obj (lit "key") &&
  (call (GetString h json_obj (lit "key")) (fun value value_errors =>
  negb value_errors &&
  (negb (is_nil value) &&
  (val_is value (Some (SStr (lit ""))))))))).
Lemma TestCanParseEmptyString_passes h0 : TestCanParseEmptyString h0 = true.
Proof. passes TestCanParseEmptyString. Qed.

(** JSON_String_test.go:128-146 *)
Definition TestCanParseStringWithSpaceBeforeKey (h0 : heap) : bool :=
  ParseJSONSuccessfully h0 (lit "{ ""key"":""value""}") (fun h json_obj =>
  HasKey h json_obj (lit "key") &&
  (Is common_IsString h json_obj (lit "key") &&
  (call (GetString h json_obj (lit "key")) (fun value value_errors =>
  negb value_errors &&
  (negb (is_nil value) &&
  (val_is value (Some (SStr (lit "value"))))))))).
Lemma TestCanParseStringWithSpaceBeforeKey_passes h0 : TestCanParseStringWithSpaceBeforeKey h0 = true.
Proof. passes TestCanParseStringWithSpaceBeforeKey. Qed.

(** JSON_String_test.go:148-166 *)
Definition TestCanParseStringWithNewlineBeforeKey (h0 : heap) : bool :=
  ParseJSONSuccessfully h0 (lit "{" ++ [ascii_of_nat 10] ++ lit """key"":""value""}") (fun h json_obj =>
  HasKey h json_obj (lit "key") &&
  (Is common_IsString h json_obj (lit "key") &&
  (call (GetString h json_obj (lit "key")) (fun value value_errors =>
  negb value_errors &&
  (negb (is_nil value) &&
  (val_is value (Some (SStr (lit "value"))))))))).
Lemma TestCanParseStringWithNewlineBeforeKey_passes h0 : TestCanParseStringWithNewlineBeforeKey h0 = true.
Proof. passes TestCanParseStringWithNewlineBeforeKey. Qed.

(** JSON_String_test.go:168-186 *)
Definition TestCanParseStringWithDosNewlineBeforeKey (h0 : heap) : bool :=
  ParseJSONSuccessfully h0 (lit "{" ++ [ascii_of_nat 13] ++ [ascii_of_nat 10] ++ lit """key"":""value""}") (fun h json_obj =>
  HasKey h json_obj (lit "key") &&
  (Is common_IsString h json_obj (lit "key") &&
  (call (GetString h json_obj (lit "key")) (fun value value_errors =>
  negb value_errors &&
  (negb (is_nil value) &&
  (val_is value (Some (SStr (lit "value"))))))))).
Lemma TestCanParseStringWithDosNewlineBeforeKey_passes h0 : TestCanParseStringWithDosNewlineBeforeKey h0 = true.
Proof. passes TestCanParseStringWithDosNewlineBeforeKey. Qed.

(** JSON_String_test.go:188-206 *)
Definition TestCanParseStringWithSpaceAfterKey (h0 : heap) : bool :=
  ParseJSONSuccessfully h0 (lit "{""key"" :""value""}") (fun h json_obj =>
  HasKey h json_obj (lit "key") &&
  (Is common_IsString h json_obj (lit "key") &&
  (call (GetString h json_obj (lit "key")) (fun value value_errors =>
  negb value_errors &&
  (negb (is_nil value) &&
  (val_is value (Some (SStr (lit "value"))))))))).
Lemma TestCanParseStringWithSpaceAfterKey_passes h0 : TestCanParseStringWithSpaceAfterKey h0 = true.
Proof. passes TestCanParseStringWithSpaceAfterKey. Qed.

(** JSON_String_test.go:208-226 *)
Definition TestCanParseStringWithNewlineAfterKey (h0 : heap) : bool :=
  ParseJSONSuccessfully h0 (lit "{""key""" ++ [ascii_of_nat 10] ++ lit ":""value""}") (fun h json_obj =>
  HasKey h json_obj (lit "key") &&
  (Is common_IsString h json_obj (lit "key") &&
  (call (GetString h json_obj (lit "key")) (fun value value_errors =>
  negb value_errors &&
  (negb (is_nil value) &&
  (val_is value (Some (SStr (lit "value"))))))))).
Lemma TestCanParseStringWithNewlineAfterKey_passes h0 : TestCanParseStringWithNewlineAfterKey h0 = true.
Proof. passes TestCanParseStringWithNewlineAfterKey. Qed.

(** JSON_String_test.go:228-246 *)
Definition TestCanParseStringWithDosNewlineAfterKey (h0 : heap) : bool :=
  ParseJSONSuccessfully h0 (lit "{""key""" ++ [ascii_of_nat 13] ++ [ascii_of_nat 10] ++ lit ":""value""}") (fun h json_obj =>
  HasKey h json_obj (lit "key") &&
  (Is common_IsString h json_obj (lit "key") &&
  (call (GetString h json_obj (lit "key")) (fun value value_errors =>
  negb value_errors &&
  (negb (is_nil value) &&
  (val_is value (Some (SStr (lit "value"))))))))).
Lemma TestCanParseStringWithDosNewlineAfterKey_passes h0 : TestCanParseStringWithDosNewlineAfterKey h0 = true.
Proof. passes TestCanParseStringWithDosNewlineAfterKey. Qed.

(** JSON_String_test.go:248-266 *)
Definition TestCanParseStringWithSpaceBeforeValue (h0 : heap) : bool :=
  ParseJSONSuccessfully h0 (lit "{""key"": ""value""}") (fun h json_obj =>
  HasKey h json_obj (lit "key") &&
  (Is common_IsString h json_obj (lit "key") &&
  (call (GetString h json_obj (lit "key")) (fun value value_errors =>
  negb value_errors &&
  (negb (is_nil value) &&
  (val_is value (Some (SStr (lit "value"))))))))).
Lemma TestCanParseStringWithSpaceBeforeValue_passes h0 : TestCanParseStringWithSpaceBeforeValue h0 = true.
Proof. passes TestCanParseStringWithSpaceBeforeValue. Qed.

(** JSON_String_test.go:268-286 *)
Definition TestCanParseStringWithNewlineBeforeValue (h0 : heap) : bool :=
  ParseJSONSuccessfully h0 (lit "{""key"":" ++ [ascii_of_nat 10] ++ lit """value""}") (fun h json_obj =>
  HasKey h json_obj (lit "key") &&
  (Is common_IsString h json_obj (lit "key") &&
  (call (GetString h json_obj (lit "key")) (fun value value_errors =>
  negb value_errors &&
  (negb (is_nil value) &&
  (val_is value (Some (SStr (lit "value"))))))))).
Lemma TestCanParseStringWithNewlineBeforeValue_passes h0 : TestCanParseStringWithNewlineBeforeValue h0 = true.
Proof. passes TestCanParseStringWithNewlineBeforeValue. Qed.

(** JSON_String_test.go:288-306 *)
Definition TestCanParseStringWithDosNewlineBeforeValue (h0 : heap) : bool :=
  ParseJSONSuccessfully h0 (lit "{""key"":" ++ [ascii_of_nat 13] ++ [ascii_of_nat 10] ++ lit """value""}") (fun h json_obj =>
  HasKey h json_obj (lit "key") &&
  (Is common_IsString h json_obj (lit "key") &&
  (call (GetString h json_obj (lit "key")) (fun value value_errors =>
  negb value_errors &&
  (negb (is_nil value) &&
  (val_is value (Some (SStr (lit "value"))))))))).
Lemma TestCanParseStringWithDosNewlineBeforeValue_passes h0 : TestCanParseStringWithDosNewlineBeforeValue h0 = true.
Proof. passes TestCanParseStringWithDosNewlineBeforeValue. Qed.

(** JSON_String_test.go:308-326 *)
Definition TestCanParseStringWithSpaceAfterValue (h0 : heap) : bool :=
  ParseJSONSuccessfully h0 (lit "{""key"":""value"" }") (fun h json_obj =>
  HasKey h json_obj (lit "key") &&
  (Is common_IsString h json_obj (lit "key") &&
  (call (GetString h json_obj (lit "key")) (fun value value_errors =>
  negb value_errors &&
  (negb (is_nil value) &&
  (val_is value (Some (SStr (lit "value"))))))))).
Lemma TestCanParseStringWithSpaceAfterValue_passes h0 : TestCanParseStringWithSpaceAfterValue h0 = true.
Proof. passes TestCanParseStringWithSpaceAfterValue. Qed.

(** JSON_String_test.go:328-346 *)
Definition TestCanParseStringWithNewlineAfterValue (h0 : heap) : bool :=
  ParseJSONSuccessfully h0 (lit "{""key"":""value""" ++ [ascii_of_nat 10] ++ lit "}") (fun h json_obj =>
  HasKey h json_obj (lit "key") &&
  (Is common_IsString h json_obj (lit "key") &&
  (call (GetString h json_obj (lit "key")) (fun value value_errors =>
  negb value_errors &&
  (negb (is_nil value) &&
  (val_is value (Some (SStr (lit "value"))))))))).
Lemma TestCanParseStringWithNewlineAfterValue_passes h0 : TestCanParseStringWithNewlineAfterValue h0 = true.
Proof. passes TestCanParseStringWithNewlineAfterValue. Qed.

(** JSON_String_test.go:348-366 *)
Definition TestCanParseStringWithNewlineBeforeAndAfterValue (h0 : heap) : bool :=
  ParseJSONSuccessfully h0 (lit "{" ++ [ascii_of_nat 10] ++ lit """key"":""value""" ++ [ascii_of_nat 10] ++ lit "}") (fun h json_obj =>
  HasKey h json_obj (lit "key") &&
  (Is common_IsString h json_obj (lit "key") &&
  (call (GetString h json_obj (lit "key")) (fun value value_errors =>
  negb value_errors &&
  (negb (is_nil value) &&
  (val_is value (Some (SStr (lit "value"))))))))).
Lemma TestCanParseStringWithNewlineBeforeAndAfterValue_passes h0 : TestCanParseStringWithNewlineBeforeAndAfterValue h0 = true.
Proof. passes TestCanParseStringWithNewlineBeforeAndAfterValue. Qed.

(** JSON_String_test.go:368-386 *)
Definition TestCanParseStringWithDosNewlineAfterValue (h0 : heap) : bool :=
  ParseJSONSuccessfully h0 (lit "{""key"":""value""" ++ [ascii_of_nat 13] ++ [ascii_of_nat 10] ++ lit "}") (fun h json_obj =>
  HasKey h json_obj (lit "key") &&
  (Is common_IsString h json_obj (lit "key") &&
  (call (GetString h json_obj (lit "key")) (fun value value_errors =>
  negb value_errors &&
  (negb (is_nil value) &&
  (val_is value (Some (SStr (lit "value"))))))))).
Lemma TestCanParseStringWithDosNewlineAfterValue_passes h0 : TestCanParseStringWithDosNewlineAfterValue h0 = true.
Proof. passes TestCanParseStringWithDosNewlineAfterValue. Qed.

(** JSON_String_test.go:388-406 *)
Definition TestCanParseStringWithQuoteKey (h0 : heap) : bool :=
  ParseJSONSuccessfully h0 (lit "{""ke\""y"":""value""}") (fun h json_obj =>
  HasKey h json_obj (lit "ke""y") &&
  (Is common_IsString h json_obj (lit "ke""y") &&
  (call (GetString h json_obj (lit "ke""y")) (fun value value_errors =>
  negb value_errors &&
  (negb (is_nil value) &&
  (val_is value (Some (SStr (lit "value"))))))))).
Lemma TestCanParseStringWithQuoteKey_passes h0 : TestCanParseStringWithQuoteKey h0 = true.
Proof. passes TestCanParseStringWithQuoteKey. Qed.

(** JSON_String_test.go:408-426 *)
Definition TestCanParseStringWithOpenBracketKey (h0 : heap) : bool :=
  ParseJSONSuccessfully h0 (lit "{""ke{y"":""value""}") (fun h json_obj =>
  HasKey h json_obj (lit "ke{y") &&
  (Is common_IsString h json_obj (lit "ke{y") &&
  (call (GetString h json_obj (lit "ke{y")) (fun value value_errors =>
  negb value_errors &&
  (negb (is_nil value) &&
  (val_is value (Some (SStr (lit "value"))))))))).
Lemma TestCanParseStringWithOpenBracketKey_passes h0 : TestCanParseStringWithOpenBracketKey h0 = true.
Proof. passes TestCanParseStringWithOpenBracketKey. Qed.

(** JSON_String_test.go:428-446 *)
Definition TestCanParseStringWithCloseBracketKey (h0 : heap) : bool :=
  ParseJSONSuccessfully h0 (lit "{""ke}y"":""value""}") (fun h json_obj =>
  HasKey h json_obj (lit "ke}y") &&
  (Is common_IsString h json_obj (lit "ke}y") &&
  (call (GetString h json_obj (lit "ke}y")) (fun value value_errors =>
  negb value_errors &&
  (negb (is_nil value) &&
  (val_is value (Some (SStr (lit "value"))))))))).
Lemma TestCanParseStringWithCloseBracketKey_passes h0 : TestCanParseStringWithCloseBracketKey h0 = true.
Proof. passes TestCanParseStringWithCloseBracketKey. Qed.

(** JSON_String_test.go:448-466 *)
Definition TestCanParseStringWithOpenSquareBracketKey (h0 : heap) : bool :=
  ParseJSONSuccessfully h0 (lit "{""ke[y"":""value""}") (fun h json_obj =>
  HasKey h json_obj (lit "ke[y") &&
  (Is common_IsString h json_obj (lit "ke[y") &&
  (call (GetString h json_obj (lit "ke[y")) (fun value value_errors =>
  negb value_errors &&
  (negb (is_nil value) &&
  (val_is value (Some (SStr (lit "value"))))))))).
Lemma TestCanParseStringWithOpenSquareBracketKey_passes h0 : TestCanParseStringWithOpenSquareBracketKey h0 = true.
Proof. passes TestCanParseStringWithOpenSquareBracketKey. Qed.

(** JSON_String_test.go:468-486 *)
Definition TestCanParseStringWithCloseSquareBracketKey (h0 : heap) : bool :=
  ParseJSONSuccessfully h0 (lit "{""ke]y"":""value""}") (fun h json_obj =>
  HasKey h json_obj (lit "ke]y") &&
  (Is common_IsString h json_obj (lit "ke]y") &&
  (call (GetString h json_obj (lit "ke]y")) (fun value value_errors =>
  negb value_errors &&
  (negb (is_nil value) &&
  (val_is value (Some (SStr (lit "value"))))))))).
Lemma TestCanParseStringWithCloseSquareBracketKey_passes h0 : TestCanParseStringWithCloseSquareBracketKey h0 = true.
Proof. passes TestCanParseStringWithCloseSquareBracketKey. Qed.

(** JSON_String_test.go:488-506 *)
Definition TestCanParseStringWithCommaKey (h0 : heap) : bool :=
  ParseJSONSuccessfully h0 (lit "{""ke,y"":""value""}") (fun h json_obj =>
  HasKey h json_obj (lit "ke,y") &&
  (Is common_IsString h json_obj (lit "ke,y") &&
  (call (GetString h json_obj (lit "ke,y")) (fun value value_errors =>
  negb value_errors &&
  (negb (is_nil value) &&
  (val_is value (Some (SStr (lit "value"))))))))).
Lemma TestCanParseStringWithCommaKey_passes h0 : TestCanParseStringWithCommaKey h0 = true.
Proof. passes TestCanParseStringWithCommaKey. Qed.

(** JSON_String_test.go:509-527 *)
Definition TestCanParseStringWithQuoteValue (h0 : heap) : bool :=
  ParseJSONSuccessfully h0 (lit "{""key"":""val\""ue""}") (fun h json_obj =>
  HasKey h json_obj (lit "key") &&
  (Is common_IsString h json_obj (lit "key") &&
  (call (GetString h json_obj (lit "key")) (fun value value_errors =>
  negb value_errors &&
  (negb (is_nil value) &&
  (val_is value (Some (SStr (lit "val""ue"))))))))).
Lemma TestCanParseStringWithQuoteValue_passes h0 : TestCanParseStringWithQuoteValue h0 = true.
Proof. passes TestCanParseStringWithQuoteValue. Qed.

(** JSON_String_test.go:529-547 *)
Definition TestCanParseStringWithOpenBracketValue (h0 : heap) : bool :=
  ParseJSONSuccessfully h0 (lit "{""key"":""val{ue""}") (fun h json_obj =>
  HasKey h json_obj (lit "key") &&
  (Is common_IsString h json_obj (lit "key") &&
  (call (GetString h json_obj (lit "key")) (fun value value_errors =>
  negb value_errors &&
  (negb (is_nil value) &&
  (val_is value (Some (SStr (lit "val{ue"))))))))).
Lemma TestCanParseStringWithOpenBracketValue_passes h0 : TestCanParseStringWithOpenBracketValue h0 = true.
Proof. passes TestCanParseStringWithOpenBracketValue. Qed.

(** JSON_String_test.go:549-567 *)
Definition TestCanParseStringWithCloseBracketValue (h0 : heap) : bool :=
  ParseJSONSuccessfully h0 (lit "{""key"":""val}ue""}") (fun h json_obj =>
  HasKey h json_obj (lit "key") &&
  (Is common_IsString h json_obj (lit "key") &&
  (call (GetString h json_obj (lit "key")) (fun value value_errors =>
  negb value_errors &&
  (negb (is_nil value) &&
  (val_is value (Some (SStr (lit "val}ue"))))))))).
Lemma TestCanParseStringWithCloseBracketValue_passes h0 : TestCanParseStringWithCloseBracketValue h0 = true.
Proof. passes TestCanParseStringWithCloseBracketValue. Qed.

(** JSON_String_test.go:569-587 *)
Definition TestCanParseStringWithOpenSquareBracketValue (h0 : heap) : bool :=
  ParseJSONSuccessfully h0 (lit "{""key"":""val[ue""}") (fun h json_obj =>
  HasKey h json_obj (lit "key") &&
  (Is common_IsString h json_obj (lit "key") &&
  (call (GetString h json_obj (lit "key")) (fun value value_errors =>
  negb value_errors &&
  (negb (is_nil value) &&
  (val_is value (Some (SStr (lit "val[ue"))))))))).
Lemma TestCanParseStringWithOpenSquareBracketValue_passes h0 : TestCanParseStringWithOpenSquareBracketValue h0 = true.
Proof. passes TestCanParseStringWithOpenSquareBracketValue. Qed.

(** JSON_String_test.go:589-607 *)
Definition TestCanParseStringWithCloseSquareBracketValue (h0 : heap) : bool :=
  ParseJSONSuccessfully h0 (lit "{""key"":""val]ue""}") (fun h json_obj =>
  HasKey h json_obj (lit "key") &&
  (Is common_IsString h json_obj (lit "key") &&
  (call (GetString h json_obj (lit "key")) (fun value value_errors =>
  negb value_errors &&
  (negb (is_nil value) &&
  (val_is value (Some (SStr (lit "val]ue"))))))))).
Lemma TestCanParseStringWithCloseSquareBracketValue_passes h0 : TestCanParseStringWithCloseSquareBracketValue h0 = true.
Proof. passes TestCanParseStringWithCloseSquareBracketValue. Qed.

(** JSON_String_test.go:609-627 *)
Definition TestCanParseStringWithCommaValue (h0 : heap) : bool :=
  ParseJSONSuccessfully h0 (lit "{""key"":""val,ue""}") (fun h json_obj =>
  HasKey h json_obj (lit "key") &&
  (Is common_IsString h json_obj (lit "key") &&
  (call (GetString h json_obj (lit "key")) (fun value value_errors =>
  negb value_errors &&
  (negb (is_nil value) &&
  (val_is value (Some (SStr (lit "val,ue"))))))))).
Lemma TestCanParseStringWithCommaValue_passes h0 : TestCanParseStringWithCommaValue h0 = true.
Proof. passes TestCanParseStringWithCommaValue. Qed.

(** JSON_String_test.go:629-647 *)
Definition TestCanParseStringWithQuoteKeyAndValue (h0 : heap) : bool :=
  ParseJSONSuccessfully h0 (lit "{""ke\""y"":""val\""ue""}") (fun h json_obj =>
  HasKey h json_obj (lit "ke""y") &&
  (Is common_IsString h json_obj (lit "ke""y") &&
  (call (GetString h json_obj (lit "ke""y")) (fun value value_errors =>
  negb value_errors &&
  (negb (is_nil value) &&
  (val_is value (Some (SStr (lit "val""ue"))))))))).
Lemma TestCanParseStringWithQuoteKeyAndValue_passes h0 : TestCanParseStringWithQuoteKeyAndValue h0 = true.
Proof. passes TestCanParseStringWithQuoteKeyAndValue. Qed.

(** JSON_String_test.go:649-659 *)
Definition TestCannotParseStringWithoutQuotePrefix (h0 : heap) : bool :=
  with_parse h0 (lit "{""key"":value""}") (fun h json json_errors =>
  (json_errors) &&
  (is_nil json)).
Lemma TestCannotParseStringWithoutQuotePrefix_passes h0 : TestCannotParseStringWithoutQuotePrefix h0 = true.
Proof. passes TestCannotParseStringWithoutQuotePrefix. Qed.

(** JSON_String_test.go:661-671 *)
Definition TestCannotParseStringWithoutQuoteSuffix (h0 : heap) : bool :=
  with_parse h0 (lit "{""key"":""value}") (fun h json json_errors =>
  (json_errors) &&
  (is_nil json)).
Lemma TestCannotParseStringWithoutQuoteSuffix_passes h0 : TestCannotParseStringWithoutQuoteSuffix h0 = true.
Proof. passes TestCannotParseStringWithoutQuoteSuffix. Qed.

(** JSON_String_test.go:673-705 *)
Definition TestCanParseMultipleStrings (h0 : heap) : bool :=
  ParseJSONSuccessfully h0 (lit "{""key"":""value"",""key2"":""value2""}") (fun h json_obj =>
  (HasKey h json_obj (lit "key") &&
  (Is common_IsString h json_obj (lit "key") &&
  (call (GetString h json_obj (lit "key")) (fun value value_errors =>
  negb value_errors &&
  (negb (is_nil value) &&
  (val_is value (Some (SStr (lit "value"))))))))) &&
  (HasKey h json_obj (lit "key2") &&
  (Is common_IsString h json_obj (lit "key2") &&
  (call (GetString h json_obj (lit "key2")) (fun value value_errors =>
  negb value_errors &&
  (negb (is_nil value) &&
  (val_is value (Some (SStr (lit "value2")))))))))).
Lemma TestCanParseMultipleStrings_passes h0 : TestCanParseMultipleStrings h0 = true.
Proof. passes TestCanParseMultipleStrings. Qed.

(** ** JSON_test.go *)

(** JSON_test.go:41-47 *)
Definition TestCanParseMinimal (h0 : heap) : bool :=
  ParseJSONSuccessfully h0 (lit "{}") (fun h json_obj =>
  KeyCount h json_obj 0).
Lemma TestCanParseMinimal_passes h0 : TestCanParseMinimal h0 = true.
Proof. passes TestCanParseMinimal. Qed.

(** JSON_test.go:49-59 *)
Definition TestCannotParseEmptyString (h0 : heap) : bool :=
  with_parse h0 (lit "") (fun h value value_errors =>
  (value_errors) &&
  (is_nil value)).
Lemma TestCannotParseEmptyString_passes h0 : TestCannotParseEmptyString h0 = true.
Proof. passes TestCannotParseEmptyString. Qed.

(** JSON_test.go:61-71 *)
Definition TestCannotParseMalformedBrackets1 (h0 : heap) : bool :=
  with_parse h0 (lit "{") (fun h value value_errors =>
  (value_errors) &&
  (is_nil value)).
Lemma TestCannotParseMalformedBrackets1_passes h0 : TestCannotParseMalformedBrackets1 h0 = true.
Proof. passes TestCannotParseMalformedBrackets1. Qed.

(** JSON_test.go:73-83 *)
Definition TestCannotParseMalformedBrackets2 (h0 : heap) : bool :=
  with_parse h0 (lit "}") (fun h value value_errors =>
  (value_errors) &&
  (is_nil value)).
Lemma TestCannotParseMalformedBrackets2_passes h0 : TestCannotParseMalformedBrackets2 h0 = true.
Proof. passes TestCannotParseMalformedBrackets2. Qed.

Definition suite_values : list (heap -> bool) :=
  [TestCanParseBoolTrue; TestCanParseBoolFalse; TestCanParseMultipleBools; TestCanParseBoolSpaceBeforeKey;
   TestCanParseBoolNewlineBeforeKey; TestCanParseBoolDosNewlineBeforeKey; TestCanParseBoolSpaceAfterKey;
   TestCanParseBoolNewlineAfterKey; TestCanParseBoolDosNewlineAfterKey; TestCanParseBoolSpaceBeforeValue;
   TestCanParseBoolSpaceNewlineBeforeValue; TestCanParseBoolSpaceDosNewlineBeforeValue;
   TestCanParseBoolSpaceAfterValue; TestCanParseBoolNewlineAfterValue; TestCanParseBoolDosNewlineAfterValue;
   TestCanParseFloat32Zero; TestCanParseFloat32PositiveLowBoundary; TestCanParseFloat32NegativeLowBoundary;
   TestCanParseFloat32MultiplePositiveLowBoundary; TestCanParseFloat32MultipleNegativeLowBoundary;
   TestCanParseFloat32MultipleLowBoundary; TestCanParseFloat32PositiveHighBoundary;
   TestCanParseFloat32NegativeHighBoundary; TestCanParseFloat32MultiplePositiveHighBoundary;
   TestCanParseFloat32MultipleNegativeHighBoundary; TestCanParseFloat32MultipleHighBoundary;
   TestCanParseFloat64PositiveLowBoundary; TestCanParseFloat64NegativeLowBoundary;
   TestCanParseFloat64MultiplePositiveLowBoundary; TestCanParseFloat64MultipleNegativeLowBoundary;
   TestCanParseFloat64MultipleLowBoundary; TestCanParseFloat64PositiveHighBoundary;
   TestCanParseFloat64NegativeHighBoundary; TestCanParseFloat64MultiplePositiveHighBoundary;
   TestCanParseFloat64MultipleNegativeHighBoundary; TestCanParseFloat64MultipleHighBoundary;
   TestCanParseNegativeInt8LowBoundary; TestCanParseNegativeInt8HighBoundary;
   TestCanParseNegativeInt16LowBoundary; TestCanParseNegativeInt16HighBoundary;
   TestCanParseNegativeInt32LowBoundary; TestCanParseNegativeInt32HighBoundarfy;
   TestCanParseNegativeInt64LowBoundary; TestCanParseNegativeInt64HighBoundary;
   TestCannotParseNegativeInt64Overflow; TestCanParseUInt8LowBoundary;
   TestCanParseUInt8LowBoundaryWithSpaceBeforeValue; TestCanParseUInt8LowBoundaryWithSpaceAfterValue;
   TestCanParseUInt8LowBoundaryWithNewlineBeforeValue; TestCanParseUInt8LowBoundaryWithNewlineAfterValue;
   TestCanParseUInt8LowBoundaryWithDosNewlineBeforeValue;
   TestCanParseUInt8LowBoundaryWithDosNewlineAfterValue; TestCanParseUInt8HighBoundary;
   TestCanParseUInt16LowBoundary; TestCanParseUInt16HighBoundary; TestCanParseUInt32LowBoundary;
   TestCanParseUInt32HighBoundary; TestCanParseUInt64LowBoundary; TestCanParseUInt64HighBoundary;
   TestCannotParseUInt64Overflow; TestCanParseUInt64PositiveMuitpleHighBondary; TestCanParseEmptyMap;
   TestCanParseNestedMapWithStringValue; TestCanParseNestedMapWithMultipleStringValue;
   TestCanParseDoubleNestedMapWithStringValue;
   TestCanParseDoubleNestedMapWithStringValueAndStringValueAtRootLevelAfter; TestCanParseNil;
   TestCanParseMultipleNil; TestCanParseString; TestCanParseStringWithLeadingTrailingLineBreaks;
   TestCanParseStringWithLeadingTrailingLineBreakLiteral;
   TestCanParseStringWithLeadingTrailingLineBreakLiteralAndReal; TestCanParseNestedJSONString;
   TestCanParseEmptyString; TestCanParseStringWithSpaceBeforeKey; TestCanParseStringWithNewlineBeforeKey;
   TestCanParseStringWithDosNewlineBeforeKey; TestCanParseStringWithSpaceAfterKey;
   TestCanParseStringWithNewlineAfterKey; TestCanParseStringWithDosNewlineAfterKey;
   TestCanParseStringWithSpaceBeforeValue; TestCanParseStringWithNewlineBeforeValue;
   TestCanParseStringWithDosNewlineBeforeValue; TestCanParseStringWithSpaceAfterValue;
   TestCanParseStringWithNewlineAfterValue; TestCanParseStringWithNewlineBeforeAndAfterValue;
   TestCanParseStringWithDosNewlineAfterValue; TestCanParseStringWithQuoteKey;
   TestCanParseStringWithOpenBracketKey; TestCanParseStringWithCloseBracketKey;
   TestCanParseStringWithOpenSquareBracketKey; TestCanParseStringWithCloseSquareBracketKey;
   TestCanParseStringWithCommaKey; TestCanParseStringWithQuoteValue; TestCanParseStringWithOpenBracketValue;
   TestCanParseStringWithCloseBracketValue; TestCanParseStringWithOpenSquareBracketValue;
   TestCanParseStringWithCloseSquareBracketValue; TestCanParseStringWithCommaValue;
   TestCanParseStringWithQuoteKeyAndValue; TestCannotParseStringWithoutQuotePrefix;
   TestCannotParseStringWithoutQuoteSuffix; TestCanParseMultipleStrings; TestCanParseMinimal;
   TestCannotParseEmptyString; TestCannotParseMalformedBrackets1; TestCannotParseMalformedBrackets2].
Lemma suite_values_passes h0 : Forall (fun t => t h0 = true) suite_values.
Proof.
  unfold suite_values.
  apply Forall_cons; [apply TestCanParseBoolTrue_passes|].
  apply Forall_cons; [apply TestCanParseBoolFalse_passes|].
  apply Forall_cons; [apply TestCanParseMultipleBools_passes|].
  apply Forall_cons; [apply TestCanParseBoolSpaceBeforeKey_passes|].
  apply Forall_cons; [apply TestCanParseBoolNewlineBeforeKey_passes|].
  apply Forall_cons; [apply TestCanParseBoolDosNewlineBeforeKey_passes|].
  apply Forall_cons; [apply TestCanParseBoolSpaceAfterKey_passes|].
  apply Forall_cons; [apply TestCanParseBoolNewlineAfterKey_passes|].
  apply Forall_cons; [apply TestCanParseBoolDosNewlineAfterKey_passes|].
  apply Forall_cons; [apply TestCanParseBoolSpaceBeforeValue_passes|].
  apply Forall_cons; [apply TestCanParseBoolSpaceNewlineBeforeValue_passes|].
  apply Forall_cons; [apply TestCanParseBoolSpaceDosNewlineBeforeValue_passes|].
  apply Forall_cons; [apply TestCanParseBoolSpaceAfterValue_passes|].
  apply Forall_cons; [apply TestCanParseBoolNewlineAfterValue_passes|].
  apply Forall_cons; [apply TestCanParseBoolDosNewlineAfterValue_passes|].
  apply Forall_cons; [apply TestCanParseFloat32Zero_passes|].
  apply Forall_cons; [apply TestCanParseFloat32PositiveLowBoundary_passes|].
  apply Forall_cons; [apply TestCanParseFloat32NegativeLowBoundary_passes|].
  apply Forall_cons; [apply TestCanParseFloat32MultiplePositiveLowBoundary_passes|].
  apply Forall_cons; [apply TestCanParseFloat32MultipleNegativeLowBoundary_passes|].
  apply Forall_cons; [apply TestCanParseFloat32MultipleLowBoundary_passes|].
  apply Forall_cons; [apply TestCanParseFloat32PositiveHighBoundary_passes|].
  apply Forall_cons; [apply TestCanParseFloat32NegativeHighBoundary_passes|].
  apply Forall_cons; [apply TestCanParseFloat32MultiplePositiveHighBoundary_passes|].
  apply Forall_cons; [apply TestCanParseFloat32MultipleNegativeHighBoundary_passes|].
  apply Forall_cons; [apply TestCanParseFloat32MultipleHighBoundary_passes|].
  apply Forall_cons; [apply TestCanParseFloat64PositiveLowBoundary_passes|].
  apply Forall_cons; [apply TestCanParseFloat64NegativeLowBoundary_passes|].
  apply Forall_cons; [apply TestCanParseFloat64MultiplePositiveLowBoundary_passes|].
  apply Forall_cons; [apply TestCanParseFloat64MultipleNegativeLowBoundary_passes|].
  apply Forall_cons; [apply TestCanParseFloat64MultipleLowBoundary_passes|].
  apply Forall_cons; [apply TestCanParseFloat64PositiveHighBoundary_passes|].
  apply Forall_cons; [apply TestCanParseFloat64NegativeHighBoundary_passes|].
  apply Forall_cons; [apply TestCanParseFloat64MultiplePositiveHighBoundary_passes|].
  apply Forall_cons; [apply TestCanParseFloat64MultipleNegativeHighBoundary_passes|].
  apply Forall_cons; [apply TestCanParseFloat64MultipleHighBoundary_passes|].
  apply Forall_cons; [apply TestCanParseNegativeInt8LowBoundary_passes|].
  apply Forall_cons; [apply TestCanParseNegativeInt8HighBoundary_passes|].
  apply Forall_cons; [apply TestCanParseNegativeInt16LowBoundary_passes|].
  apply Forall_cons; [apply TestCanParseNegativeInt16HighBoundary_passes|].
  apply Forall_cons; [apply TestCanParseNegativeInt32LowBoundary_passes|].
  apply Forall_cons; [apply TestCanParseNegativeInt32HighBoundarfy_passes|].
  apply Forall_cons; [apply TestCanParseNegativeInt64LowBoundary_passes|].
  apply Forall_cons; [apply TestCanParseNegativeInt64HighBoundary_passes|].
  apply Forall_cons; [apply TestCannotParseNegativeInt64Overflow_passes|].
  apply Forall_cons; [apply TestCanParseUInt8LowBoundary_passes|].
  apply Forall_cons; [apply TestCanParseUInt8LowBoundaryWithSpaceBeforeValue_passes|].
  apply Forall_cons; [apply TestCanParseUInt8LowBoundaryWithSpaceAfterValue_passes|].
  apply Forall_cons; [apply TestCanParseUInt8LowBoundaryWithNewlineBeforeValue_passes|].
  apply Forall_cons; [apply TestCanParseUInt8LowBoundaryWithNewlineAfterValue_passes|].
  apply Forall_cons; [apply TestCanParseUInt8LowBoundaryWithDosNewlineBeforeValue_passes|].
  apply Forall_cons; [apply TestCanParseUInt8LowBoundaryWithDosNewlineAfterValue_passes|].
  apply Forall_cons; [apply TestCanParseUInt8HighBoundary_passes|].
  apply Forall_cons; [apply TestCanParseUInt16LowBoundary_passes|].
  apply Forall_cons; [apply TestCanParseUInt16HighBoundary_passes|].
  apply Forall_cons; [apply TestCanParseUInt32LowBoundary_passes|].
  apply Forall_cons; [apply TestCanParseUInt32HighBoundary_passes|].
  apply Forall_cons; [apply TestCanParseUInt64LowBoundary_passes|].
  apply Forall_cons; [apply TestCanParseUInt64HighBoundary_passes|].
  apply Forall_cons; [apply TestCannotParseUInt64Overflow_passes|].
  apply Forall_cons; [apply TestCanParseUInt64PositiveMuitpleHighBondary_passes|].
  apply Forall_cons; [apply TestCanParseEmptyMap_passes|].
  apply Forall_cons; [apply TestCanParseNestedMapWithStringValue_passes|].
  apply Forall_cons; [apply TestCanParseNestedMapWithMultipleStringValue_passes|].
  apply Forall_cons; [apply TestCanParseDoubleNestedMapWithStringValue_passes|].
  apply Forall_cons; [apply TestCanParseDoubleNestedMapWithStringValueAndStringValueAtRootLevelAfter_passes|].
  apply Forall_cons; [apply TestCanParseNil_passes|].
  apply Forall_cons; [apply TestCanParseMultipleNil_passes|].
  apply Forall_cons; [apply TestCanParseString_passes|].
  apply Forall_cons; [apply TestCanParseStringWithLeadingTrailingLineBreaks_passes|].
  apply Forall_cons; [apply TestCanParseStringWithLeadingTrailingLineBreakLiteral_passes|].
  apply Forall_cons; [apply TestCanParseStringWithLeadingTrailingLineBreakLiteralAndReal_passes|].
  apply Forall_cons; [apply TestCanParseNestedJSONString_passes|].
  apply Forall_cons; [apply TestCanParseEmptyString_passes|].
  apply Forall_cons; [apply TestCanParseStringWithSpaceBeforeKey_passes|].
  apply Forall_cons; [apply TestCanParseStringWithNewlineBeforeKey_passes|].
  apply Forall_cons; [apply TestCanParseStringWithDosNewlineBeforeKey_passes|].
  apply Forall_cons; [apply TestCanParseStringWithSpaceAfterKey_passes|].
  apply Forall_cons; [apply TestCanParseStringWithNewlineAfterKey_passes|].
  apply Forall_cons; [apply TestCanParseStringWithDosNewlineAfterKey_passes|].
  apply Forall_cons; [apply TestCanParseStringWithSpaceBeforeValue_passes|].
  apply Forall_cons; [apply TestCanParseStringWithNewlineBeforeValue_passes|].
  apply Forall_cons; [apply TestCanParseStringWithDosNewlineBeforeValue_passes|].
  apply Forall_cons; [apply TestCanParseStringWithSpaceAfterValue_passes|].
  apply Forall_cons; [apply TestCanParseStringWithNewlineAfterValue_passes|].
  apply Forall_cons; [apply TestCanParseStringWithNewlineBeforeAndAfterValue_passes|].
  apply Forall_cons; [apply TestCanParseStringWithDosNewlineAfterValue_passes|].
  apply Forall_cons; [apply TestCanParseStringWithQuoteKey_passes|].
  apply Forall_cons; [apply TestCanParseStringWithOpenBracketKey_passes|].
  apply Forall_cons; [apply TestCanParseStringWithCloseBracketKey_passes|].
  apply Forall_cons; [apply TestCanParseStringWithOpenSquareBracketKey_passes|].
  apply Forall_cons; [apply TestCanParseStringWithCloseSquareBracketKey_passes|].
  apply Forall_cons; [apply TestCanParseStringWithCommaKey_passes|].
  apply Forall_cons; [apply TestCanParseStringWithQuoteValue_passes|].
  apply Forall_cons; [apply TestCanParseStringWithOpenBracketValue_passes|].
  apply Forall_cons; [apply TestCanParseStringWithCloseBracketValue_passes|].
  apply Forall_cons; [apply TestCanParseStringWithOpenSquareBracketValue_passes|].
  apply Forall_cons; [apply TestCanParseStringWithCloseSquareBracketValue_passes|].
  apply Forall_cons; [apply TestCanParseStringWithCommaValue_passes|].
  apply Forall_cons; [apply TestCanParseStringWithQuoteKeyAndValue_passes|].
  apply Forall_cons; [apply TestCannotParseStringWithoutQuotePrefix_passes|].
  apply Forall_cons; [apply TestCannotParseStringWithoutQuoteSuffix_passes|].
  apply Forall_cons; [apply TestCanParseMultipleStrings_passes|].
  apply Forall_cons; [apply TestCanParseMinimal_passes|].
  apply Forall_cons; [apply TestCannotParseEmptyString_passes|].
  apply Forall_cons; [apply TestCannotParseMalformedBrackets1_passes|].
  apply Forall_cons; [apply TestCannotParseMalformedBrackets2_passes|].
  apply Forall_nil.
Qed.
